(* Slices that do not overlap: what append and the CNF methods do to them. *)
From Verif Require Import GoBase GoLemmas Cnf Query Walk Atoms Logop CnfHeap.
From Coq Require Import Permutation.
Local Open Scope Z_scope.
Local Open Scope list_scope.

(* ---- one store ---- *)

Section Store.
Context {A : Type} (dflt : A).
Notation store := (list (list A)).

Definition tight (st : store) (s : slice) : Prop := s_len s = cap st s.
(* A slice into the store; the first [b a] places of array a are never written. *)
Record good (b : nat -> nat) (st : store) (s : slice) : Prop := {
  g_arr : (s_arr s < length st)%nat;
  g_len : (s_len s <= cap st s)%nat;
  g_base : (b (s_arr s) <= s_len s)%nat
}.
(* Nothing is said of arrays that do not exist yet. *)
Definition bounded (b : nat -> nat) (st : store) : Prop := forall a, (length st <= a)%nat -> b a = 0%nat.
(* Slices that may live side by side: two with the same array have no room. *)
Definition apart (st : store) (s s' : slice) : Prop := s_arr s <> s_arr s' \/ (tight st s /\ tight st s').
Inductive sep (b : nat -> nat) (st : store) : list slice -> Prop :=
| sep_nil : sep b st []
| sep_cons : forall s l, good b st s -> Forall (apart st s) l -> sep b st l -> sep b st (s :: l).

Lemma apart_sym : forall st s s', apart st s s' -> apart st s' s.
Proof. unfold apart. intros st s s' [H|[H1 H2]]; auto. Qed.
Lemma sep_perm : forall b st l l', Permutation l l' -> sep b st l -> sep b st l'.
Proof.
  intros b st l l' P. induction P; intros H; auto.
  - inversion H; subst. constructor; auto. eapply Permutation_Forall; eauto.
  - inversion H as [|? ? G1 F1 S1]; subst. inversion S1 as [|? ? G2 F2 S2]; subst. inversion F1; subst.
    constructor; auto. constructor; auto. now apply apart_sym. now constructor.
Qed.
Lemma sep_good : forall b st l s, sep b st l -> In s l -> good b st s.
Proof. intros b st l s H. induction H; intros []; subst; auto. Qed.
Lemma sep_app_r : forall b st l l', sep b st (l ++ l') -> sep b st l'.
Proof. induction l; simpl; intros l' H; auto. inversion H; auto. Qed.

(* [st'] is [st] with new arrays and writes behind the first [b a] places. *)
Definition ext (b : nat -> nat) (st st' : store) : Prop :=
  (length st <= length st')%nat /\
  forall a, (a < length st)%nat -> length (array st' a) = length (array st a) /\ firstn (b a) (array st' a) = firstn (b a) (array st a).
Lemma ext_refl : forall b st, ext b st st.
Proof. split; auto. Qed.
Lemma ext_trans : forall b s1 s2 s3, ext b s1 s2 -> ext b s2 s3 -> ext b s1 s3.
Proof.
  intros b s1 s2 s3 [L1 X1] [L2 X2]. split; [lia|]. intros a Ha. destruct (X1 a Ha). destruct (X2 a); [lia|]. split; congruence.
Qed.
Lemma ext_cap : forall b st st' s, ext b st st' -> (s_arr s < length st)%nat -> cap st' s = cap st s.
Proof. intros b st st' s [_ X] H. apply X; auto. Qed.
Lemma ext_good : forall b st st' s, ext b st st' -> good b st s -> good b st' s.
Proof.
  intros b st st' s X [G1 G2 G3]. pose proof (ext_cap _ _ _ _ X G1) as C. constructor; [destruct X; lia|now rewrite C|auto].
Qed.
Lemma ext_sep : forall b st st' l, ext b st st' -> sep b st l -> sep b st' l.
Proof.
  intros b st st' l X H. induction H; constructor; auto. now apply (ext_good b st).
  rewrite Forall_forall in *. intros x Hx. specialize (H0 x Hx). unfold apart, tight in *.
  rewrite (ext_cap b st st' s), (ext_cap b st st' x); auto. apply (sep_good _ _ _ _ H1 Hx). apply H.
Qed.

Lemma nth_snoc_old : forall (st : store) x a, (a < length st)%nat -> array (st ++ [x]) a = array st a.
Proof. intros. unfold array. now rewrite app_nth1. Qed.
Lemma nth_snoc_new : forall (st : store) x, array (st ++ [x]) (length st) = x.
Proof. intros. unfold array. rewrite app_nth2, Nat.sub_diag; auto. Qed.
Lemma list_set_len : forall (B : Type) (l : list B) n x, length (list_set l n x) = length l.
Proof. induction l; intros [|n] x; simpl; auto. Qed.
Lemma array_set_same : forall (st : store) n x, (n < length st)%nat -> array (list_set st n x) n = x.
Proof. unfold array. induction st; intros [|n] x H; simpl in *; try lia; auto. apply IHst. lia. Qed.
Lemma array_set_other : forall (st : store) n m x, n <> m -> array (list_set st n x) m = array st m.
Proof. unfold array. induction st; intros [|n] [|m] x H; simpl in *; try congruence; auto. Qed.

Lemma salloc_spec : forall b st xs n s st', salloc dflt st xs n = (s, st') -> bounded b st ->
  sread st' s = xs /\ good b st' s /\ s_arr s = length st /\ s_len s = length xs /\ ext b st st' /\ (forall a, (a < length st)%nat -> array st' a = array st a).
Proof.
  intros b st xs n s st' E B. injection E as <- <-.
  assert (O : forall a, (a < length st)%nat -> array (st ++ [xs ++ repeat dflt n]) a = array st a) by (intros; now apply nth_snoc_old).
  assert (Y : sread (st ++ [xs ++ repeat dflt n]) (mkSl (length st) (length xs)) = xs).
  { unfold sread. cbn [s_arr s_len]. rewrite nth_snoc_new, firstn_app, Nat.sub_diag, firstn_all. simpl. apply app_nil_r. }
  split; [exact Y|]. split; [constructor; unfold cap; cbn [s_arr s_len]; rewrite ?nth_snoc_new, ?app_length; simpl; try lia; rewrite B; lia|].
  split; auto. split; auto. split; auto. split; [rewrite app_length; lia|]. intros a Ha. rewrite O by auto. auto.
Qed.

Lemma overwrite_len : forall (a : list A) n xs, (n + length xs <= length a)%nat -> length (overwrite a n xs) = length a.
Proof. intros a n xs H. unfold overwrite. rewrite !app_length, firstn_length, skipn_length. lia. Qed.
Lemma overwrite_read : forall (a : list A) n xs, (n + length xs <= length a)%nat -> firstn (n + length xs) (overwrite a n xs) = firstn n a ++ xs.
Proof.
  intros a n xs H. unfold overwrite. rewrite app_assoc, firstn_app. replace (n + length xs)%nat with (length (firstn n a ++ xs)) by (rewrite app_length, firstn_length; lia).
  rewrite firstn_all, Nat.sub_diag. simpl. apply app_nil_r.
Qed.
Lemma overwrite_before : forall (a : list A) n xs k, (n <= length a)%nat -> (k <= n)%nat -> firstn k (overwrite a n xs) = firstn k a.
Proof.
  intros a n xs k H K. unfold overwrite. rewrite firstn_app, firstn_length. replace (k - Nat.min n (length a))%nat with 0%nat by lia. simpl. rewrite app_nil_r.
  rewrite firstn_firstn. f_equal. lia.
Qed.

(* append: the result holds both; the slices that live beside it, and the old
   slice, keep their contents. *)
Lemma sappend_spec : forall b st s xs n s' st', sappend dflt st s xs n = (s', st') -> good b st s -> bounded b st ->
  sread st' s' = sread st s ++ xs /\ s_len s' = (s_len s + length xs)%nat /\ good b st' s' /\ ext b st st' /\ sread st' s = sread st s /\
  (forall x, good b st x -> apart st s x -> sread st' x = sread st x /\ apart st' s' x).
Proof.
  intros b st s xs n s' st' E [G1 G2 G3] B. unfold sappend in E.
  assert (LR : length (sread st s) = s_len s) by (unfold sread; rewrite firstn_length; unfold cap in G2; lia).
  destruct (Nat.leb_spec (s_len s + length xs) (cap st s)) as [L|L].
  - injection E as <- <-. unfold cap in *.
    assert (X : ext b st (list_set st (s_arr s) (overwrite (array st (s_arr s)) (s_len s) xs))).
    { split; [rewrite list_set_len; auto|]. intros a Ha. destruct (Nat.eq_dec (s_arr s) a) as [<-|N].
      - rewrite array_set_same by auto. split; [now apply overwrite_len|]. apply overwrite_before; lia.
      - now rewrite array_set_other. }
    split; [|split; [reflexivity|split; [|split; [exact X|split]]]].
    + unfold sread. cbn [s_arr s_len]. rewrite array_set_same by auto. now apply overwrite_read.
    + constructor; cbn [s_arr s_len]; [rewrite list_set_len; auto|unfold cap; cbn [s_arr]; rewrite array_set_same by auto; now rewrite overwrite_len|lia].
    + unfold sread. rewrite array_set_same by auto. apply overwrite_before; lia.
    + intros x Gx [N|[T1 T2]].
      * split; [unfold sread; now rewrite array_set_other|left; auto].
      * unfold tight, cap in T1, T2. assert (xs = []) as -> by (destruct xs; auto; simpl in L; lia). 
        assert (Q : array (list_set st (s_arr s) (overwrite (array st (s_arr s)) (s_len s) [])) (s_arr x) = array st (s_arr x)).
        { destruct (Nat.eq_dec (s_arr s) (s_arr x)) as [Q|Q]; [|now apply array_set_other]. rewrite <- Q, array_set_same by auto. unfold overwrite. simpl. rewrite Nat.add_0_r. apply firstn_skipn. }
        split; [unfold sread; now rewrite Q|]. right. unfold tight, cap. cbn [s_arr s_len]. rewrite Q. split; auto.
        rewrite array_set_same by auto. rewrite overwrite_len by (simpl; lia). simpl. lia.
  - destruct (salloc_spec b _ _ _ _ _ E B) as (R & G & Ga & Gl & X & O).
    split; [exact R|]. split; [now rewrite Gl, app_length, LR|]. split; [exact G|]. split; [exact X|]. split; [unfold sread; now rewrite O|].
    intros x Gx _. split; [unfold sread; rewrite O; auto; apply Gx|]. left. rewrite Ga. destruct Gx. lia.
Qed.
End Store.

(* ---- both stores ---- *)

Section Heap.
Variable spare : heap -> nat.
Variables bo bi : nat -> nat.

(* [LO]: the live []Clause slices, [LI]: live clauses not (yet) in one of them. *)
Record inv (H : heap) (LO LI : list slice) : Prop := {
  i_bo : bounded bo (outs H);
  i_bi : bounded bi (ints H);
  i_neg : bo 1%nat = 1%nat /\ bo 0%nat = 0%nat /\ bi 0%nat = 0%nat;
  i_nil : array (outs H) 0 = [];
  i_false : array (outs H) 1 = [nil_slice];
  i_empty : array (ints H) 0 = [];
  i_outs : (2 <= length (outs H))%nat;
  i_ints : (1 <= length (ints H))%nat;
  i_so : sep bo (outs H) LO;
  i_si : sep bi (ints H) (LI ++ flat_map (sread (outs H)) LO)
}.
Definition extH (H H' : heap) : Prop := ext bo (outs H) (outs H') /\ ext bi (ints H) (ints H').
Definition keep (H H' : heap) (LO LI : list slice) : Prop :=
  (forall t, In t LO -> clauses_of H' t = clauses_of H t) /\ (forall i, In i LI -> sread (ints H') i = sread (ints H) i).

Lemma extH_refl : forall H, extH H H.
Proof. split; apply ext_refl. Qed.
Lemma extH_trans : forall H1 H2 H3, extH H1 H2 -> extH H2 H3 -> extH H1 H3.
Proof. intros H1 H2 H3 [A B] [C D]. split; eapply ext_trans; eauto. Qed.
Lemma keep_refl : forall H LO LI, keep H H LO LI.
Proof. split; auto. Qed.
Lemma keep_trans : forall H1 H2 H3 LO LI, keep H1 H2 LO LI -> keep H2 H3 LO LI -> keep H1 H3 LO LI.
Proof. intros H1 H2 H3 LO LI [A B] [C D]. split; intros; rewrite ?C, ?D; auto. Qed.
Lemma keep_incl : forall H H' LO LI LO' LI', keep H H' LO LI -> incl LO' LO -> incl LI' LI -> keep H H' LO' LI'.
Proof. intros H H' LO LI LO' LI' [A B] I J. split; auto. Qed.
Lemma bounded_ext : forall (A : Type) b (st st' : list (list A)), bounded b st -> ext b st st' -> bounded b st'.
Proof. intros A b st st' B [L _] a Ha. apply B. lia. Qed.

Lemma inv_perm : forall H LO LO' LI LI', inv H LO LI -> Permutation LO LO' -> Permutation LI LI' -> inv H LO' LI'.
Proof.
  intros H LO LO' LI LI' [] P Q. constructor; auto. eapply sep_perm; eauto.
  eapply sep_perm; [|eassumption]. apply Permutation_app; auto. now apply Permutation_flat_map.
Qed.
Lemma inv_drop : forall H LO LI l, inv H LO (l ++ LI) -> inv H LO LI.
Proof. intros H LO LI l []. constructor; auto. rewrite <- app_assoc in i_si0. now apply sep_app_r in i_si0. Qed.
(* forget the slice, keep its clauses *)
Lemma inv_open : forall H t LO LI, inv H (t :: LO) LI -> inv H LO (sread (outs H) t ++ LI).
Proof.
  intros H t LO LI []. constructor; auto. now inversion i_so0.
  eapply sep_perm; [|eassumption]. simpl. rewrite !app_assoc. apply Permutation_app_tail. apply Permutation_app_comm.
Qed.
Lemma inv_forget : forall H t LO LI, inv H (t :: LO) LI -> inv H LO LI.
Proof. intros. now apply inv_open, inv_drop in H0. Qed.

(* the constants of the program *)
Lemma inv_nil : forall H LO LI, inv H LO LI -> inv H (nil_slice :: LO) LI.
Proof.
  intros H LO LI []. constructor; auto. constructor; auto.
  - constructor; cbn; lia.
  - apply Forall_forall. intros x Hx. destruct (sep_good _ _ _ _ i_so0 Hx) as [G1 G2 G3]. unfold apart, tight, cap in *. cbn [nil_slice s_arr s_len].
    destruct (Nat.eq_dec (s_arr x) 0) as [Q|Q]; [right|left; auto]. rewrite Q, i_nil0 in *. simpl in *. lia.
Qed.
Lemma inv_false : forall H LO LI, inv H LO LI -> inv H (mkSl 1 1 :: LO) LI.
Proof.
  intros H LO LI []. constructor; auto; [constructor; auto|].
  - constructor; unfold cap; cbn; [lia| |lia]. rewrite i_false0. auto.
  - apply Forall_forall. intros x Hx. destruct (sep_good _ _ _ _ i_so0 Hx) as [G1 G2 G3]. unfold apart, tight, cap in *. cbn [s_arr s_len].
    destruct (Nat.eq_dec (s_arr x) 1) as [Q|Q]; [right|left; auto]. rewrite Q, i_false0 in *. simpl in *. lia.
  - simpl. unfold sread at 1. cbn [s_arr s_len]. rewrite i_false0. simpl. eapply sep_perm; [apply Permutation_middle|]. constructor; auto.
    + constructor; cbn; lia.
    + apply Forall_forall. intros x Hx. destruct (sep_good _ _ _ _ i_si0 Hx) as [G1 G2 G3]. unfold apart, tight, cap in *. cbn [nil_slice s_arr s_len].
      destruct (Nat.eq_dec (s_arr x) 0) as [Q|Q]; [right|left; auto]. rewrite Q, i_empty0 in *. simpl in *. lia.
Qed.
Lemma nil_clauses : forall H LO LI, inv H LO LI -> clauses_of H nil_slice = [].
Proof. reflexivity. Qed.
Lemma false_clauses : forall H LO LI, inv H LO LI -> clauses_of H (mkSl 1 1) = [[]].
Proof. intros H LO LI I. unfold clauses_of, sread. cbn [s_arr s_len]. rewrite (i_false _ _ _ I). reflexivity. Qed.

Lemma ext_const : forall (A : Type) b (st st' : list (list A)) a x, ext b st st' -> (a < length st)%nat -> array st a = x -> b a = length x -> array st' a = x.
Proof.
  intros A b st st' a x [_ X] L E B. destruct (X a L) as [X1 X2]. rewrite B, E in *. rewrite firstn_all in X2. rewrite <- X2, <- X1. symmetry. apply firstn_all.
Qed.
Lemma inv_outs : forall H st LO LI, inv H LO LI -> ext bo (outs H) st -> (forall t, In t LO -> sread st t = sread (outs H) t) -> inv (mkHeap (ints H) st) LO LI.
Proof.
  intros H st LO LI [] X K. destruct i_neg0 as (N1 & N2 & N3). constructor; cbn [ints outs]; auto.
  - now apply (bounded_ext _ bo (outs H)).
  - apply (ext_const _ bo (outs H)); auto; lia.
  - apply (ext_const _ bo (outs H)); auto; lia.
  - destruct X. lia.
  - now apply (ext_sep bo (outs H)).
  - rewrite !flat_map_concat_map in *. erewrite map_ext_in; [exact i_si0|exact K].
Qed.
Lemma inv_ints : forall H st LO LI, inv H LO LI -> ext bi (ints H) st -> inv (mkHeap st (outs H)) LO LI.
Proof.
  intros H st LO LI [] X. destruct i_neg0 as (N1 & N2 & N3). constructor; cbn [ints outs]; auto.
  - now apply (bounded_ext _ bi (ints H)).
  - apply (ext_const _ bi (ints H)); auto; lia.
  - destruct X. lia.
  - now apply (ext_sep bi (ints H)).
Qed.
Lemma in_inner : forall H t LO LI i, In t LO -> In i (sread (outs H) t) -> In i (LI ++ flat_map (sread (outs H)) LO).
Proof. intros. apply in_or_app. right. apply in_flat_map. eauto. Qed.

(* x := Clause{xs...} *)
Lemma new_ints_spec : forall H xs n s H' LO LI, new_ints H xs n = (s, H') -> inv H LO LI ->
  inv H' LO (s :: LI) /\ sread (ints H') s = xs /\ s_len s = length xs /\ extH H H' /\ keep H H' LO LI.
Proof.
  intros H xs n s H' LO LI E I. unfold new_ints in E. destruct (salloc 0 (ints H) xs n) as [s' st] eqn:E'. injection E as <- <-.
  destruct (salloc_spec 0 bi _ _ _ _ _ E' (i_bi _ _ _ I)) as (R & G & Ga & Gl & X & O).
  assert (K : forall i, In i (LI ++ flat_map (sread (outs H)) LO) -> sread st i = sread (ints H) i).
  { intros i Hi. unfold sread. rewrite O; auto. apply (sep_good _ _ _ _ (i_si _ _ _ I) Hi). }
  split; [|split; [exact R|split; [exact Gl|split; [split; [apply ext_refl|exact X]|split]]]].
  - pose proof (inv_ints _ _ _ _ I X) as J. destruct J. constructor; auto. cbn [app ints outs] in *. constructor; auto.
    apply Forall_forall. intros x Hx. left. rewrite Ga. destruct (sep_good _ _ _ _ (i_si _ _ _ I) Hx). lia.
  - intros t Ht. unfold clauses_of. cbn [ints outs]. apply map_ext_in. intros i Hi. apply K. now apply (in_inner H t).
  - intros i Hi. apply K, in_or_app. auto.
Qed.

(* x := []Clause{xs...} *)
Lemma new_outs_spec : forall H xs n s H' LO LI, new_outs H xs n = (s, H') -> inv H LO (xs ++ LI) ->
  inv H' (s :: LO) LI /\ sread (outs H') s = xs /\ clauses_of H' s = map (sread (ints H)) xs /\ extH H H' /\ keep H H' LO (xs ++ LI).
Proof.
  intros H xs n s H' LO LI E I. unfold new_outs in E. destruct (salloc nil_slice (outs H) xs n) as [s' st] eqn:E'. injection E as <- <-.
  destruct (salloc_spec nil_slice bo _ _ _ _ _ E' (i_bo _ _ _ I)) as (R & G & Ga & Gl & X & O).
  assert (K : forall i, In i LO -> sread st i = sread (outs H) i).
  { intros i Hi. unfold sread. rewrite O; auto. apply (sep_good _ _ _ _ (i_so _ _ _ I) Hi). }
  split; [|split; [exact R|split; [|split; [split; [exact X|apply ext_refl]|split]]]].
  - pose proof (inv_outs _ _ _ _ I X K) as J. destruct J. cbn [app ints outs] in *. constructor; auto.
    + constructor; auto. apply Forall_forall. intros x Hx. left. rewrite Ga. destruct (sep_good _ _ _ _ (i_so _ _ _ I) Hx). lia.
    + cbn [app ints outs flat_map] in *. rewrite R. eapply sep_perm; [|exact i_si0]. rewrite !app_assoc. apply Permutation_app_tail, Permutation_app_comm.
  - unfold clauses_of. cbn [ints outs]. now rewrite R.
  - intros t Ht. unfold clauses_of. cbn [ints outs]. now rewrite K.
  - reflexivity.
Qed.

(* x = append(x, xs...) for a Clause x *)
Lemma append_ints_spec : forall H s xs s' H' LO LI, append_ints spare H s xs = (s', H') -> inv H LO (s :: LI) ->
  inv H' LO (s' :: LI) /\ sread (ints H') s' = sread (ints H) s ++ xs /\ s_len s' = (s_len s + length xs)%nat /\ extH H H' /\ keep H H' LO LI.
Proof.
  intros H s xs s' H' LO LI E I. unfold append_ints in E. destruct (sappend 0 (ints H) s xs (spare H)) as [s1 st] eqn:E'. injection E as <- <-.
  pose proof (i_si _ _ _ I) as S. cbn [app] in S. inversion S as [|? ? G F S']; subst.
  destruct (sappend_spec 0 bi _ _ _ _ _ _ E' G (i_bi _ _ _ I)) as (R & Gl & G' & X & _ & O). rewrite Forall_forall in F.
  assert (K : forall i, In i (LI ++ flat_map (sread (outs H)) LO) -> sread st i = sread (ints H) i).
  { intros i Hi. apply O; auto. now apply (sep_good _ _ _ _ S'). }
  split; [|split; [exact R|split; [exact Gl|split; [split; [apply ext_refl|exact X]|split]]]].
  - pose proof (inv_ints _ _ _ _ I X) as J. destruct J. constructor; auto. cbn [app ints outs] in *. inversion i_si0; subst. constructor; auto.
    apply Forall_forall. intros x Hx. apply O; auto. now apply (sep_good _ _ _ _ S').
  - intros t Ht. unfold clauses_of. cbn [ints outs]. apply map_ext_in. intros i Hi. apply K. now apply (in_inner H t).
  - intros i Hi. apply K, in_or_app. auto.
Qed.

(* x = append(x, xs...) for a []Clause x *)
Lemma append_outs_spec : forall H s xs s' H' LO LI, append_outs spare H s xs = (s', H') -> inv H (s :: LO) (xs ++ LI) ->
  inv H' (s' :: LO) LI /\ clauses_of H' s' = clauses_of H s ++ map (sread (ints H)) xs /\ extH H H' /\ keep H H' LO (xs ++ LI) /\ ints H' = ints H.
Proof.
  intros H s xs s' H' LO LI E I. unfold append_outs in E. destruct (sappend nil_slice (outs H) s xs (spare H)) as [s1 st] eqn:E'. injection E as <- <-.
  pose proof (i_so _ _ _ I) as S. inversion S as [|? ? G F S']; subst.
  destruct (sappend_spec nil_slice bo _ _ _ _ _ _ E' G (i_bo _ _ _ I)) as (R & Gl & G' & X & Rs & O). rewrite Forall_forall in F.
  assert (K : forall i, In i LO -> sread st i = sread (outs H) i).
  { intros i Hi. apply O; auto. now apply (sep_good _ _ _ _ S'). }
  split; [|split; [|split; [split; [exact X|apply ext_refl]|split; [split|reflexivity]]]].
  - assert (J : inv (mkHeap (ints H) st) (s :: LO) (xs ++ LI)).
    { apply inv_outs; auto. intros t [<-|Ht]; auto. }
    destruct J. constructor; auto; cbn [ints outs] in *.
    + inversion i_so0; subst. constructor; auto. apply Forall_forall. intros x Hx. apply O; auto. now apply (sep_good _ _ _ _ S').
    + cbn [flat_map] in *. rewrite R, Rs in *. eapply sep_perm; [|exact i_si0].
      etransitivity; [apply Permutation_app_tail, Permutation_app_comm|]. rewrite <- !app_assoc. apply Permutation_app_head. rewrite !app_assoc. apply Permutation_app_tail, Permutation_app_comm.
  - unfold clauses_of. cbn [ints outs]. now rewrite R, map_app.
  - intros t Ht. unfold clauses_of. cbn [ints outs]. now rewrite K.
  - reflexivity.
Qed.
End Heap.
