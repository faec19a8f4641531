(* DFS and the preference rank (HEPR). *)
From Verif Require Import GoBase Cnf Query Walk Atoms Spec Sym AtomBase AtomSimple Counter TreeLemmas AtomTree WalkConst WalkLemmas.
Local Open Scope Z_scope.
Local Open Scope list_scope.

(* ---- dfs ---- *)

Lemma witness_ok : forall d v l1 l2, length (cVal l1) = d -> length (cVal l2) = d ->
  exists cl, notAWitnessClause d v l1 l2 = Ok cl /\
    (forall l, In l cl -> exists i, in_range d i /\ l = Ln v i BOT) /\
    forall t e, rep d t v e -> (scl_true t cl = true <-> separated d e (cVal l1) (cVal l2)).
Proof.
  intros d v l1 l2 H1 H2. unfold notAWitnessClause. rewrite H1, H2, Nat.eqb_refl. cbn [negb orb].
  eexists. split; [reflexivity|]. split.
  - intros l Hl. apply in_flat_map in Hl as (i & Hi & Hl). apply In_zrange in Hi. exists i.
    destruct (negb (vget (cVal l1) i =? BOT) && negb (vget (cVal l2) i =? BOT) && negb (vget (cVal l1) i =? vget (cVal l2) i));
      simpl in Hl; [|contradiction]. destruct Hl as [<-|[]]. auto.
  - intros t e R. rewrite scl_or. unfold separated. split.
    + intros (l & Hl & Ht). apply in_flat_map in Hl as (i & Hi & Hl). apply In_zrange in Hi.
      change vget with feat in Hl.
      destruct (Z.eqb_spec (feat (cVal l1) i) BOT); simpl in Hl; [contradiction|].
      destruct (Z.eqb_spec (feat (cVal l2) i) BOT); simpl in Hl; [contradiction|].
      destruct (Z.eqb_spec (feat (cVal l1) i) (feat (cVal l2) i)); simpl in Hl; [contradiction|].
      destruct Hl as [<-|[]]. rewrite slit_Ln, (rep_BOT _ _ _ _ _ R) in Ht by auto.
      apply negb_true_iff, Z.eqb_neq in Ht. exists i. auto.
    + intros (i & Hi & A & B & C & D). exists (Ln v i BOT). split.
      * apply in_flat_map. exists i. split; [now apply In_zrange|]. change vget with feat.
        destruct (Z.eqb_spec (feat (cVal l1) i) BOT); [contradiction|].
        destruct (Z.eqb_spec (feat (cVal l2) i) BOT); [contradiction|].
        destruct (Z.eqb_spec (feat (cVal l1) i) (feat (cVal l2) i)); [contradiction|]. simpl. auto.
      * rewrite slit_Ln, (rep_BOT _ _ _ _ _ R) by auto. apply negb_true_iff, Z.eqb_neq. auto.
Qed.

Lemma dfs_var_loop_ok : forall d v pairs,
  (forall p n, In (p, n) pairs -> length (cVal p) = d /\ length (cVal n) = d) ->
  exists cls, dfs_var_loop d v pairs = Ok cls /\
    (forall cl l, In cl cls -> In l cl -> exists i, in_range d i /\ l = Ln v i BOT) /\
    forall t e, rep d t v e ->
      (scls_true t cls = true <-> forall p n, In (p, n) pairs -> separated d e (cVal p) (cVal n)).
Proof.
  intros d v. induction pairs as [|[p n] pairs IH]; intros H; simpl.
  - exists []. split; [reflexivity|]. split; [intros ? ? []|]. intros. split; auto. intros _ p n [].
  - destruct (H p n (or_introl eq_refl)) as [Hp Hn].
    destruct (witness_ok d v p n Hp Hn) as (cl & E & A & B). rewrite E. cbn [rbind].
    destruct IH as (cls & E' & A' & B'); [intros; apply H; simpl; auto|]. rewrite E'. cbn [rbind].
    exists (cl :: cls). split; [reflexivity|]. split.
    + intros cl' l [<-|Hc] Hl; eauto.
    + intros t e R. rewrite scls_cons, andb_true_iff, (B t e R), (B' t e R). split.
      * intros [S1 S2] p' n' [[= <- <-]|Hin]; auto.
      * intros S. split; [apply S; auto|]. intros; apply S; auto.
Qed.

Lemma leafCompare_ok : forall d c l1 l2, length (cVal c) = d -> length (cVal l1) = d -> length (cVal l2) = d ->
  exists b, leafCompare c l1 l2 = Ok b /\ (b = true <-> separated d (cVal c) (cVal l1) (cVal l2)).
Proof.
  intros d c l1 l2 Hc H1 H2. unfold leafCompare. rewrite Hc, H1, H2, Nat.eqb_refl. cbn [negb orb].
  eexists. split; [reflexivity|]. rewrite existsb_exists. unfold separated. split.
  - intros ([x [y z]] & Hin & Hb). simpl in Hb. rewrite !andb_true_iff, !negb_true_iff, !Z.eqb_neq in Hb.
    destruct Hb as (((A & B) & C) & D).
    apply (In_nth _ _ (BOT, (BOT, BOT))) in Hin as (k & Hk & E).
    rewrite !combine_length in Hk.
    rewrite combine_nth, combine_nth in E by (rewrite ?combine_length; lia). injection E as <- <- <-.
    exists (Z.of_nat k). unfold feat, in_range. rewrite Nat2Z.id. repeat split; auto; lia.
  - intros (i & Hi & A & B & C & D). exists (feat (cVal c) i, (feat (cVal l1) i, feat (cVal l2) i)). split.
    + unfold feat, in_range in *. rewrite <- combine_nth by lia. rewrite <- combine_nth by (rewrite combine_length; lia).
      apply nth_In. rewrite !combine_length. lia.
    + simpl. rewrite !andb_true_iff, !negb_true_iff, !Z.eqb_neq. auto.
Qed.

Lemma dfs_const_loop_ok : forall d c pairs, length (cVal c) = d ->
  (forall p n, In (p, n) pairs -> length (cVal p) = d /\ length (cVal n) = d) ->
  exists b, dfs_const_loop c pairs = Ok b /\
    (b = true <-> forall p n, In (p, n) pairs -> separated d (cVal c) (cVal p) (cVal n)).
Proof.
  intros d c pairs Hc. induction pairs as [|[p n] pairs IH]; intros H; simpl.
  - exists true. split; auto. split; auto. intros _ p n [].
  - destruct (H p n (or_introl eq_refl)) as [Hp Hn].
    destruct (leafCompare_ok d c p n Hc Hp Hn) as (b & E & B). rewrite E. cbn [rbind].
    destruct b; cbn [negb].
    + destruct IH as (b' & E' & B'); [intros; apply H; simpl; auto|]. exists b'. split; auto. rewrite B'.
      split; [|intros S; auto]. intros S p' n' [[= <- <-]|Hin]; auto. now apply B.
    + exists false. split; auto. split; [discriminate|]. intros S. apply B. apply S. auto.
Qed.

Lemma leaf_pairs : forall m t, is_dtree m t ->
  (forall p n, In (p, n) (list_prod (pos_leafs (all_bot (Dim m)) t) (neg_leafs (all_bot (Dim m)) t)) ->
     length (cVal p) = Dim m /\ length (cVal n) = Dim m) /\
  (forall e, valid_inst (Dim m) e ->
    ((forall p n, In (p, n) (list_prod (pos_leafs (all_bot (Dim m)) t) (neg_leafs (all_bot (Dim m)) t)) ->
       separated (Dim m) e (cVal p) (cVal n)) <-> determinant (Dim m) t e)).
Proof.
  intros m t DT. pose proof DT as (_ & _ & _ & _ & _ & R). pose proof (all_bot_valid (Dim m)) as AB.
  assert (P : forall p, In p (pos_leafs (all_bot (Dim m)) t) <-> exists l, p = mkQConst EmptyString l /\ In (l, true) (leaf_insts (all_bot (Dim m)) t)).
  { intros p. unfold pos_leafs. rewrite in_map_iff. split.
    - intros ((l & b) & <- & Hf). apply filter_In in Hf as [Hf Hb]. simpl in Hb. subst b. eauto.
    - intros (l & -> & Hl). exists (l, true). split; auto. apply filter_In; auto. }
  assert (N : forall p, In p (neg_leafs (all_bot (Dim m)) t) <-> exists l, p = mkQConst EmptyString l /\ In (l, false) (leaf_insts (all_bot (Dim m)) t)).
  { intros p. unfold neg_leafs. rewrite in_map_iff. split.
    - intros ((l & b) & <- & Hf). apply filter_In in Hf as [Hf Hb]. simpl in Hb. destruct b; [discriminate|]. eauto.
    - intros (l & -> & Hl). exists (l, false). split; auto. apply filter_In; auto. }
  split.
  - intros p n H. apply in_prod_iff in H as [Hp Hn]. apply P in Hp as (l & -> & Hl). apply N in Hn as (l' & -> & Hl').
    simpl. split; [apply (leaf_insts_valid _ _ _ _ _ _ R AB Hl)|apply (leaf_insts_valid _ _ _ _ _ _ R AB Hl')].
  - intros e He. rewrite (determinant_iff _ _ _ R He). split.
    + intros H p n Hp Hn. apply (H (mkQConst EmptyString p) (mkQConst EmptyString n)).
      apply in_prod_iff. split; [apply P|apply N]; eauto.
    + intros H p n Hpn. apply in_prod_iff in Hpn as [Hp Hn].
      apply P in Hp as (l & -> & Hl). apply N in Hn as (l' & -> & Hl'). simpl. auto.
Qed.

(* some leaf exists *)
Lemma leafs_some : forall m t, is_dtree m t ->
  (length (pos_leafs (all_bot (Dim m)) t) =? 0)%nat && (length (neg_leafs (all_bot (Dim m)) t) =? 0)%nat = false.
Proof.
  intros m t _. generalize (all_bot (Dim m)). induction t as [i b|i f z IHz o IHo]; intros e.
  - unfold pos_leafs, neg_leafs. simpl. destruct b; reflexivity.
  - rewrite pos_leafs_split, neg_leafs_split, !app_length. specialize (IHz (set_feat e f ZERO)).
    destruct (length (pos_leafs (set_feat e f ZERO) z)), (length (neg_leafs (set_feat e f ZERO) z)); simpl in *;
      try reflexivity; try discriminate. apply andb_false_r.
Qed.

(* ---- hepr ---- *)

Fixpoint prefb (pref : list Z) (e1 e2 : inst) : bool :=
  match pref with
  | [] => true
  | i :: r => (negb (feat e1 i =? BOT) && (feat e2 i =? BOT)) ||
              (Bool.eqb (feat e1 i =? BOT) (feat e2 i =? BOT) && prefb r e1 e2)
  end.
Lemma prefb_ok : forall pref e1 e2, prefb pref e1 e2 = true <-> preferred pref e1 e2.
Proof.
  induction pref as [|i r IH]; intros e1 e2; simpl; [tauto|].
  rewrite orb_true_iff, !andb_true_iff, IH, eqb_true_iff, negb_true_iff, Z.eqb_neq, Z.eqb_eq.
  apply or_iff_compat_l. apply and_iff_compat_r.
  destruct (Z.eqb_spec (feat e1 i) BOT), (Z.eqb_spec (feat e2 i) BOT); split; intros; try tauto; try discriminate.
Qed.

Lemma hepr_cc_ok : forall e1 e2 pref, hepr_cc e1 e2 pref = true <-> preferred pref e1 e2.
Proof.
  intros e1 e2 pref. rewrite <- prefb_ok. induction pref as [|i r IH]; simpl; [tauto|]. change vget with feat.
  destruct (feat e1 i =? BOT), (feat e2 i =? BOT); simpl; try tauto.
Qed.

Lemma validatePref_ok : forall pref dim, validatePref pref dim = None <-> Forall (in_range dim) pref /\ NoDup pref.
Proof.
  intros pref dim. unfold validatePref.
  assert (G : forall seen, validatePref_from seen pref dim = None <->
     Forall (in_range dim) pref /\ NoDup pref /\ forall x, In x pref -> ~ In x seen).
  { induction pref as [|i r IH]; intros seen; simpl.
    - split; auto. intros _. repeat split; auto. constructor.
    - destruct (Z.ltb_spec i 0); simpl.
      { split; [discriminate|]. intros (F & _). inversion F; subst. unfold in_range in *; lia. }
      destruct (Z.leb_spec (Z.of_nat dim) i); simpl.
      { split; [discriminate|]. intros (F & _). inversion F; subst. unfold in_range in *; lia. }
      destruct (existsb (Z.eqb i) seen) eqn:E.
      { split; [discriminate|]. intros (_ & _ & F). exfalso. apply existsb_exists in E as (x & Hx & E). apply Z.eqb_eq in E. subst x.
        apply (F i); auto. }
      rewrite IH. split.
      + intros (F & N & D). split; [constructor; auto; unfold in_range; lia|]. split.
        * constructor; auto. intros Hi. apply (D i Hi). simpl; auto.
        * intros x [<-|Hx] Hs.
          -- assert (existsb (Z.eqb i) seen = true) by (apply existsb_exists; exists i; split; auto; apply Z.eqb_refl). congruence.
          -- apply (D x Hx). simpl; auto.
      + intros (F & N & D). inversion F; subst. inversion N; subst. split; auto. split; auto.
        intros x Hx [<-|Hs]; [contradiction|]. apply (D x); auto. }
  rewrite G. split; [intros (A & B & _); auto|]. intros (A & B). repeat split; auto.
Qed.

(* h says of every suffix of the preference whether e1 is preferred on it *)
Definition ranks (t : tval) (h : string) (pref : list Z) (e1 e2 : inst) : Prop :=
  forall i, 0 <= i < Z.of_nat (length pref) -> t (h, 0, i) = prefb (skipn (Z.to_nat i) pref) e1 e2.

Definition rank_step (a b nx : bool) : bool := (negb a && b) || (Bool.eqb a b && nx).

Lemma skipn_nth : forall A (dflt : A) l n, (n < length l)%nat -> skipn n l = nth n l dflt :: skipn (S n) l.
Proof.
  intros A dflt. induction l as [|a l IH]; intros n H; simpl in H; [lia|].
  destruct n as [|n]; [reflexivity|]. simpl. apply IH. lia.
Qed.

Lemma ranks_iff : forall t h pref e1 e2, pref <> [] ->
  let plen := Z.of_nat (length pref) in
  (t (h, 0, plen - 1) = rank_step (feat e1 (vget pref (plen - 1)) =? BOT) (feat e2 (vget pref (plen - 1)) =? BOT) true /\
   (forall i, 0 <= i < plen - 1 ->
      t (h, 0, i) = rank_step (feat e1 (vget pref i) =? BOT) (feat e2 (vget pref i) =? BOT) (t (h, 0, i + 1)))
   <-> ranks t h pref e1 e2).
Proof.
  intros t h pref e1 e2 Hne plen.
  assert (Hpos : (0 < length pref)%nat) by (destruct pref; simpl; [congruence|lia]).
  assert (U : forall i, 0 <= i < plen -> prefb (skipn (Z.to_nat i) pref) e1 e2 =
     rank_step (feat e1 (vget pref i) =? BOT) (feat e2 (vget pref i) =? BOT) (prefb (skipn (Z.to_nat (i + 1)) pref) e1 e2)).
  { intros i Hi. rewrite (skipn_nth _ 0) by lia. replace (Z.to_nat (i + 1)) with (S (Z.to_nat i)) by lia. reflexivity. }
  assert (UL : prefb (skipn (Z.to_nat plen) pref) e1 e2 = true) by (unfold plen; rewrite Nat2Z.id, skipn_all; reflexivity).
  split.
  - intros [HL HS].
    assert (G : forall n i, 0 <= i < plen -> plen - 1 - i = Z.of_nat n -> t (h, 0, i) = prefb (skipn (Z.to_nat i) pref) e1 e2).
    { induction n as [|n IH]; intros i Hi Hn.
      - replace i with (plen - 1) in * by lia. rewrite HL, U by lia. replace (plen - 1 + 1) with plen by lia. now rewrite UL.
      - rewrite HS, U by lia. f_equal. apply IH; lia. }
    intros i Hi. apply (G (Z.to_nat (plen - 1 - i))); auto; lia.
  - intros R. split.
    + rewrite R, U by lia. replace (plen - 1 + 1) with plen by lia. now rewrite UL.
    + intros i Hi. rewrite (R i), U, (R (i + 1)) by lia. reflexivity.
Qed.

Lemma hepr_cons_form : forall A (f : Z -> list sclause) plen s t,
  scls_true t (cons_ ([ECons A] ++ map (fun i => ECons (f i)) (hepr_idxs plen) ++ [ESem s])) = true <->
  scls_true t A = true /\ forall i, 0 <= i < plen - 1 -> scls_true t (f i) = true.
Proof.
  intros A f plen s t. unfold cons_. rewrite !fold_left_app. simpl. rewrite cons_fold_con, scls_true_app, andb_true_iff.
  rewrite scls_flat_map, forallb_forall. apply and_iff_compat_l. unfold hepr_idxs. setoid_rewrite <- in_rev. setoid_rewrite In_zrange.
  reflexivity.
Qed.
Lemma hepr_sems_form : forall A (f : Z -> list sclause) plen s,
  sems ([ECons A] ++ map (fun i => ECons (f i)) (hepr_idxs plen) ++ [ESem s]) = s.
Proof. intros. unfold sems. rewrite !fold_left_app. simpl. now rewrite cons_fold_sem. Qed.

Lemma in_pref : forall d pref i, Forall (in_range d) pref -> 0 <= i < Z.of_nat (length pref) -> in_range d (vget pref i).
Proof.
  intros d pref i F Hi. rewrite Forall_forall in F. apply F. apply nth_In. lia.
Qed.

(* the three versions with a variable have the shape of hepr_cons_form *)
Definition hepr_vv_last (v1 v2 h : string) (pref : list Z) : list sclause :=
  let plen := Z.of_nat (length pref) in let idx := vget pref (plen - 1) in
  [[Ln h 0 (plen - 1); Ln v1 idx BOT; Lp v2 idx BOT];
          [Lp v1 idx BOT; Lp h 0 (plen - 1)];
          [Ln v2 idx BOT; Lp h 0 (plen - 1)]].
Definition hepr_vv_step (v1 v2 h : string) (pref : list Z) (i : Z) : list sclause :=
  let idx := vget pref i in
  [[Ln v1 idx BOT; Lp v2 idx BOT; Ln h 0 i];
              [Ln v1 idx BOT; Ln h 0 i; Lp h 0 (i + 1)];
              [Lp v2 idx BOT; Ln h 0 i; Lp h 0 (i + 1)];
              [Lp v1 idx BOT; Ln v2 idx BOT; Lp h 0 i];
              [Lp v1 idx BOT; Lp h 0 i; Ln h 0 (i + 1)];
              [Ln v2 idx BOT; Lp h 0 i; Ln h 0 (i + 1)]].
Lemma hepr_vv_form : forall v1 v2 h pref, hepr_vv v1 v2 h pref =
  [ECons (hepr_vv_last v1 v2 h pref)] ++ map (fun i => ECons (hepr_vv_step v1 v2 h pref i)) (hepr_idxs (Z.of_nat (length pref)))
  ++ [ESem [[Lp h 0 0]]].
Proof. reflexivity. Qed.

Definition hepr_vc_last (v : string) (val : list FeatV) (h : string) (pref : list Z) : list sclause :=
  let plen := Z.of_nat (length pref) in let idx := vget pref (plen - 1) in
  if negb (vget val idx =? BOT) then [[Ln h 0 (plen - 1); Ln v idx BOT]; [Lp h 0 (plen - 1); Lp v idx BOT]]
  else [[Lp h 0 (plen - 1)]].
Definition hepr_vc_step (v : string) (val : list FeatV) (h : string) (pref : list Z) (i : Z) : list sclause :=
  let idx := vget pref i in
  if negb (vget val idx =? BOT) then
    [[Lp v idx BOT; Ln h 0 (i + 1); Lp h 0 i]; [Ln h 0 i; Ln v idx BOT]; [Ln h 0 i; Lp h 0 (i + 1)]]
  else [[Ln v idx BOT; Lp h 0 (i + 1); Ln h 0 i]; [Lp h 0 i; Lp v idx BOT]; [Lp h 0 i; Ln h 0 (i + 1)]].
Lemma hepr_vc_form : forall v val h pref, hepr_vc v val h pref =
  [ECons (hepr_vc_last v val h pref)] ++ map (fun i => ECons (hepr_vc_step v val h pref i)) (hepr_idxs (Z.of_nat (length pref)))
  ++ [ESem [[Lp h 0 0]]].
Proof.
  intros. unfold hepr_vc, hepr_vc_last. destruct (negb _); f_equal; f_equal; apply map_ext; intros i;
    unfold hepr_vc_step; destruct (negb _); reflexivity.
Qed.

Definition hepr_cv_last (val : list FeatV) (v h : string) (pref : list Z) : list sclause :=
  let plen := Z.of_nat (length pref) in let idx := vget pref (plen - 1) in
  if negb (vget val idx =? BOT) then [[Lp h 0 (plen - 1)]]
  else [[Ln h 0 (plen - 1); Lp v idx BOT]; [Ln v idx BOT; Lp h 0 (plen - 1)]].
Definition hepr_cv_step (val : list FeatV) (v h : string) (pref : list Z) (i : Z) : list sclause :=
  let idx := vget pref i in
  if negb (vget val idx =? BOT) then
    [[Ln h 0 i; Lp v idx BOT; Lp h 0 (i + 1)]; [Ln v idx BOT; Lp h 0 i]; [Ln h 0 (i + 1); Lp h 0 i]]
  else [[Ln v idx BOT; Ln h 0 (i + 1); Lp h 0 i]; [Ln h 0 i; Lp v idx BOT]; [Ln h 0 i; Lp h 0 (i + 1)]].
Lemma hepr_cv_form : forall val v h pref, hepr_cv val v h pref =
  [ECons (hepr_cv_last val v h pref)] ++ map (fun i => ECons (hepr_cv_step val v h pref i)) (hepr_idxs (Z.of_nat (length pref)))
  ++ [ESem [[Lp h 0 0]]].
Proof.
  intros. unfold hepr_cv, hepr_cv_last. destruct (negb _); f_equal; f_equal; apply map_ext; intros i;
    unfold hepr_cv_step; destruct (negb _); reflexivity.
Qed.

Ltac bools := repeat match goal with |- context [?t (?h, ?i, ?j)] => destruct (t (h, i, j)) end; simpl; split; intros; auto; discriminate.

Lemma hepr_vv_cons : forall d t v1 v2 h pref e1 e2, rep d t v1 e1 -> rep d t v2 e2 ->
  Forall (in_range d) pref -> pref <> [] ->
  (scls_true t (cons_ (hepr_vv v1 v2 h pref)) = true <-> ranks t h pref e1 e2).
Proof.
  intros d t v1 v2 h pref e1 e2 H1 H2 F Hne. rewrite hepr_vv_form, hepr_cons_form, <- ranks_iff by auto.
  assert (Hpos : (0 < length pref)%nat) by (destruct pref; simpl; [congruence|lia]).
  apply and_iff2.
  - unfold hepr_vv_last. lits. assert (R : in_range d (vget pref (Z.of_nat (length pref) - 1))) by (apply in_pref; auto; lia).
    rewrite (rep_BOT _ _ _ _ _ H1 R), (rep_BOT _ _ _ _ _ H2 R). unfold rank_step.
    destruct (feat e1 _ =? BOT), (feat e2 _ =? BOT); bools.
  - split; intros H i Hi; specialize (H i Hi); unfold hepr_vv_step in *; revert H; lits;
      assert (R : in_range d (vget pref i)) by (apply in_pref; auto; lia);
      rewrite (rep_BOT _ _ _ _ _ H1 R), (rep_BOT _ _ _ _ _ H2 R); unfold rank_step;
      destruct (feat e1 _ =? BOT), (feat e2 _ =? BOT), (t (h, 0, i)), (t (h, 0, i + 1)); simpl; auto.
Qed.
Lemma hepr_vc_cons : forall d t v c h pref e, rep d t v e ->
  Forall (in_range d) pref -> pref <> [] ->
  (scls_true t (cons_ (hepr_vc v c h pref)) = true <-> ranks t h pref e c).
Proof.
  intros d t v c h pref e H1 F Hne. rewrite hepr_vc_form, hepr_cons_form, <- ranks_iff by auto.
  assert (Hpos : (0 < length pref)%nat) by (destruct pref; simpl; [congruence|lia]).
  apply and_iff2.
  - unfold hepr_vc_last. rewrite vget_feat. assert (R : in_range d (vget pref (Z.of_nat (length pref) - 1))) by (apply in_pref; auto; lia).
    unfold rank_step. destruct (feat c _ =? BOT); cbn [negb]; lits; rewrite ?(rep_BOT _ _ _ _ _ H1 R);
    destruct (feat e _ =? BOT); bools.
  - split; intros H i Hi; specialize (H i Hi); unfold hepr_vc_step in *; rewrite vget_feat in *; revert H; unfold rank_step;
      assert (R : in_range d (vget pref i)) by (apply in_pref; auto; lia);
      destruct (feat c _ =? BOT); cbn [negb]; lits; rewrite ?(rep_BOT _ _ _ _ _ H1 R);
      destruct (feat e _ =? BOT), (t (h, 0, i)), (t (h, 0, i + 1)); simpl; auto.
Qed.
Lemma hepr_cv_cons : forall d t v c h pref e, rep d t v e ->
  Forall (in_range d) pref -> pref <> [] ->
  (scls_true t (cons_ (hepr_cv c v h pref)) = true <-> ranks t h pref c e).
Proof.
  intros d t v c h pref e H1 F Hne. rewrite hepr_cv_form, hepr_cons_form, <- ranks_iff by auto.
  assert (Hpos : (0 < length pref)%nat) by (destruct pref; simpl; [congruence|lia]).
  apply and_iff2.
  - unfold hepr_cv_last. rewrite vget_feat. assert (R : in_range d (vget pref (Z.of_nat (length pref) - 1))) by (apply in_pref; auto; lia).
    unfold rank_step. destruct (feat c _ =? BOT); cbn [negb]; lits; rewrite ?(rep_BOT _ _ _ _ _ H1 R);
    destruct (feat e _ =? BOT); bools.
  - split; intros H i Hi; specialize (H i Hi); unfold hepr_cv_step in *; rewrite vget_feat in *; revert H; unfold rank_step;
      assert (R : in_range d (vget pref i)) by (apply in_pref; auto; lia);
      destruct (feat c _ =? BOT); cbn [negb]; lits; rewrite ?(rep_BOT _ _ _ _ _ H1 R);
      destruct (feat e _ =? BOT), (t (h, 0, i)), (t (h, 0, i + 1)); simpl; auto.
Qed.

Lemma ranks_sem : forall t h pref e1 e2, pref <> [] -> ranks t h pref e1 e2 ->
  (scls_true t [[Lp h 0 0]] = true <-> preferred pref e1 e2).
Proof.
  intros t h pref e1 e2 Hne R. lits. rewrite (R 0), <- prefb_ok; [reflexivity|]. destruct pref; simpl; [congruence|lia].
Qed.
