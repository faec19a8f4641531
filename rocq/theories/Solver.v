(* A SAT solver, proved correct.  Not part of the code: it decides the concrete
   formulas of the examples and shows that the premise "the solver is correct"
   of the theorems about compute/ can be met. *)
From Verif Require Import GoBase Cnf CnfSem.
Local Open Scope Z_scope.
Local Open Scope list_scope.

(* Clauses left when l is made true. *)
Definition assign (l : Z) (cls : list clause) : list clause :=
  map (filter (fun x => negb (x =? - l))) (filter (fun cl => negb (existsb (Z.eqb l) cl)) cls).

Definition size (cls : list clause) : nat := fold_right (fun cl n => (length cl + n)%nat) O cls.

(* A literal to branch on: a unit clause if there is one, else the first literal. *)
Fixpoint unit_lit (cls : list clause) : option Z :=
  match cls with
  | [] => None
  | [l] :: _ => Some l
  | _ :: r => unit_lit r
  end.
Fixpoint first_lit (cls : list clause) : option Z :=
  match cls with
  | [] => None
  | (l :: _) :: _ => Some l
  | [] :: r => first_lit r
  end.
Definition pick (cls : list clause) : option Z :=
  match unit_lit cls with Some l => Some l | None => first_lit cls end.
Definition has_empty (cls : list clause) : bool :=
  existsb (fun cl => match cl with [] => true | _ => false end) cls.

Fixpoint solve_aux (fuel : nat) (cls : list clause) : option (list Z) :=
  if has_empty cls then None
  else match pick cls with
       | None => Some []
       | Some l =>
           match fuel with
           | O => None
           | S f =>
               match solve_aux f (assign l cls) with
               | Some a => Some (l :: a)
               | None =>
                   match solve_aux f (assign (- l) cls) with
                   | Some a => Some (- l :: a)
                   | None => None
                   end
               end
           end
       end.
Definition solve (cls : list clause) : option (list Z) := solve_aux (size cls) cls.

(* ---- correctness ---- *)

Definition legal (cls : list clause) : Prop := Forall (Forall (fun l => l <> 0)) cls.

Lemma unit_lit_in : forall cls l, unit_lit cls = Some l -> In [l] cls.
Proof.
  induction cls as [|[|x [|y cl]] r IH]; intros l H; simpl in *; try discriminate; auto.
  injection H as ->. auto.
Qed.
Lemma first_lit_in : forall cls l, first_lit cls = Some l -> exists cl, In (l :: cl) cls.
Proof.
  induction cls as [|[|x cl] r IH]; intros l H; simpl in *; try discriminate.
  - destruct (IH l H) as [cl Hc]. eauto.
  - injection H as ->. eauto.
Qed.
Lemma pick_in : forall cls l, pick cls = Some l -> exists cl, In cl cls /\ In l cl.
Proof.
  intros cls l H. unfold pick in H. destruct (unit_lit cls) eqn:E.
  - injection H as ->. apply unit_lit_in in E. exists [l]. split; auto. simpl; auto.
  - apply first_lit_in in H as [cl H]. exists (l :: cl). split; auto. simpl; auto.
Qed.
Lemma first_lit_none : forall cls, first_lit cls = None -> Forall (fun cl => cl = []) cls.
Proof. induction cls as [|[|x cl] r IH]; intros H; simpl in *; try discriminate; constructor; auto. Qed.
Lemma pick_none : forall cls, has_empty cls = false -> pick cls = None -> cls = [].
Proof.
  intros cls H P. unfold pick in P. destruct (unit_lit cls); [discriminate|]. apply first_lit_none in P.
  destruct P as [|cl r P _]; auto. subst. discriminate.
Qed.

Lemma filter_le : forall A (f : A -> bool) l, (length (filter f l) <= length l)%nat.
Proof. induction l; simpl; auto. destruct (f a); simpl; lia. Qed.
Lemma filter_lt : forall A (f : A -> bool) l x, In x l -> f x = false -> (length (filter f l) < length l)%nat.
Proof.
  induction l as [|a l IH]; intros x E H; [destruct E|]; simpl; destruct E as [E|E].
  - subst. rewrite H. pose proof (filter_le _ f l). lia.
  - specialize (IH x E H). destruct (f a); simpl; lia.
Qed.
Lemma assign_le : forall l cls, (size (assign l cls) <= size cls)%nat.
Proof.
  intros l. induction cls as [|cl r IH]; simpl; auto. unfold assign in *. simpl. destruct (negb (existsb (Z.eqb l) cl)); simpl; [|lia].
  pose proof (filter_le _ (fun x => negb (x =? - l)) cl). lia.
Qed.
Lemma assign_lt : forall l cls cl, In cl cls -> In l cl \/ In (- l) cl -> (size (assign l cls) < size cls)%nat.
Proof.
  intros l. induction cls as [|c r IH]; intros cl H Hl; [destruct H|]; simpl; destruct H as [H|H].
  - subst c. pose proof (assign_le l r) as H. unfold assign in *. simpl. destruct (existsb (Z.eqb l) cl) eqn:E; simpl.
    + apply existsb_exists in E as (x & Hx & _). destruct cl; [contradiction|]. simpl. lia.
    + destruct Hl as [Hl|Hl].
      * assert (existsb (Z.eqb l) cl = true) by (apply existsb_exists; exists l; split; auto; apply Z.eqb_refl). congruence.
      * assert (X : (length (filter (fun x : Z => negb (x =? - l)%Z) cl) < length cl)%nat) by (apply (filter_lt _ _ cl (- l) Hl); now rewrite Z.eqb_refl). lia.
  - specialize (IH cl H Hl). pose proof (filter_le _ (fun x => negb (x =? - l)) c). unfold assign in *. simpl. destruct (negb (existsb (Z.eqb l) c)); simpl; lia.
Qed.

Lemma assign_legal : forall l cls, legal cls -> legal (assign l cls).
Proof.
  intros l cls H. unfold assign, legal in *. rewrite Forall_forall in *. intros cl Hc.
  apply in_map_iff in Hc as (c & <- & Hc). apply filter_In in Hc as [Hc _]. specialize (H c Hc).
  rewrite Forall_forall in *. intros x Hx. apply filter_In in Hx as [Hx _]. auto.
Qed.

(* A valuation that makes l true satisfies the clauses iff it satisfies those left. *)
Lemma assign_true : forall r l cls, l <> 0 -> lit_true r l = true ->
  clauses_true r (assign l cls) = clauses_true r cls.
Proof.
  intros r l cls N T. unfold clauses_true, assign. induction cls as [|cl cls IH]; simpl; auto.
  destruct (existsb (Z.eqb l) cl) eqn:E; simpl.
  - rewrite IH. apply existsb_exists in E as (x & Hx & E). apply Z.eqb_eq in E. subst x.
    assert (clause_true r cl = true) by (apply existsb_exists; eauto). now rewrite H.
  - rewrite IH. f_equal. unfold clause_true. clear E. induction cl as [|x cl IHc]; simpl; auto.
    destruct (Z.eqb_spec x (- l)) as [->|]; simpl; rewrite IHc; auto.
    rewrite lit_true_opp, T by auto. reflexivity.
Qed.

Lemma has_empty_unsat : forall r cls, has_empty cls = true -> clauses_true r cls = false.
Proof.
  intros r cls H. apply existsb_exists in H as (cl & Hc & E). destruct cl; [|discriminate].
  apply not_true_is_false. intros T. apply forallb_forall with (x := []) in T; auto. discriminate.
Qed.

Lemma solve_aux_none : forall fuel cls, (size cls <= fuel)%nat -> legal cls -> solve_aux fuel cls = None ->
  forall r, clauses_true r cls = false.
Proof.
  induction fuel as [|f IH]; intros cls HF HL H r; simpl in H; destruct (has_empty cls) eqn:HE; try (apply has_empty_unsat; auto; fail).
  - destruct (pick cls) as [l|] eqn:P; [|discriminate].
    apply pick_in in P as (cl & Hc & Hl). pose proof (assign_lt l cls cl Hc (or_introl Hl)). lia.
  - destruct (pick cls) as [l|] eqn:P; [|discriminate].
    apply pick_in in P as (cl & Hc & Hl).
    assert (N : l <> 0) by (unfold legal in HL; rewrite Forall_forall in HL; specialize (HL cl Hc); rewrite Forall_forall in HL; auto).
    destruct (solve_aux f (assign l cls)) eqn:E1; [discriminate|].
    destruct (solve_aux f (assign (- l) cls)) eqn:E2; [discriminate|].
    pose proof (assign_lt l cls cl Hc (or_introl Hl)) as L1.
    assert (L2 : (size (assign (- l) cls) < size cls)%nat) by (apply (assign_lt _ cls cl Hc); right; now rewrite Z.opp_involutive).
    destruct (lit_true r l) eqn:T.
    + rewrite <- (assign_true r l cls N T). apply IH; auto; [lia|now apply assign_legal].
    + assert (T' : lit_true r (- l) = true) by (rewrite lit_true_opp, T; auto).
      rewrite <- (assign_true r (- l) cls) by (auto; lia). apply IH; auto; [lia|now apply assign_legal].
Qed.

(* The literals left do not mention the variable of l. *)
Definition mentions (x : Z) (cls : list clause) : Prop := exists cl l, In cl cls /\ In l cl /\ Z.abs l = Z.abs x.
Lemma assign_mentions : forall l x cls, mentions x (assign l cls) -> mentions x cls /\ Z.abs x <> Z.abs l.
Proof.
  intros l x cls (cl & y & Hc & Hy & E). unfold assign in Hc. apply in_map_iff in Hc as (c & <- & Hc).
  apply filter_In in Hc as [Hc Hn]. apply filter_In in Hy as [Hy Hm]. split; [exists c, y; auto|].
  rewrite negb_true_iff in Hn, Hm. apply Z.eqb_neq in Hm. intros F.
  assert (y = l) as -> by lia. assert (existsb (Z.eqb l) c = true) by (apply existsb_exists; exists l; split; auto; apply Z.eqb_refl). congruence.
Qed.

Lemma solve_aux_some : forall fuel cls a, legal cls -> solve_aux fuel cls = Some a ->
  Forall (fun l => l <> 0) a /\ (forall l, In l a -> mentions l cls) /\ NoDup (map Z.abs a) /\
  forall r, (forall l, In l a -> lit_true r l = true) -> clauses_true r cls = true.
Proof.
  assert (Base : forall cls a, legal cls -> has_empty cls = false -> pick cls = None -> Some [] = Some a ->
     Forall (fun l => l <> 0) a /\ (forall l, In l a -> mentions l cls) /\ NoDup (map Z.abs a) /\
     forall r, (forall l, In l a -> lit_true r l = true) -> clauses_true r cls = true).
  { intros cls a HL HE P H. injection H as <-. rewrite (pick_none _ HE P). repeat split; auto; try constructor. intros l []. }
  induction fuel as [|f IH]; intros cls a HL H; simpl in H; destruct (has_empty cls) eqn:HE; try discriminate; destruct (pick cls) as [l|] eqn:P; try discriminate; eauto.
  apply pick_in in P as (cl & Hc & Hl).
  assert (N : l <> 0) by (unfold legal in HL; rewrite Forall_forall in HL; specialize (HL cl Hc); rewrite Forall_forall in HL; auto).
  assert (Step : forall s a', Z.abs s = Z.abs l -> solve_aux f (assign s cls) = Some a' -> a = s :: a' ->
     Forall (fun l => l <> 0) a /\ (forall l, In l a -> mentions l cls) /\ NoDup (map Z.abs a) /\
     forall r, (forall l, In l a -> lit_true r l = true) -> clauses_true r cls = true).
  { intros s a' Es E ->. destruct (IH _ _ (assign_legal s cls HL) E) as (A1 & A2 & A3 & A4).
    split; [constructor; auto; lia|]. split.
    - intros x [<-|Hx]; [exists cl, l; auto|]. apply A2, assign_mentions in Hx. tauto.
    - split.
      + cbn [map]. constructor; auto. intros Hin. apply in_map_iff in Hin as (y & Ey & Hy). apply A2, assign_mentions in Hy. lia.
      + intros r Hr. rewrite <- (assign_true r s cls); [|lia|apply Hr; simpl; auto]. apply A4. intros x Hx. apply Hr. simpl; auto. }
  destruct (solve_aux f (assign l cls)) eqn:E1.
  - injection H as <-. eapply Step; eauto.
  - destruct (solve_aux f (assign (- l) cls)) eqn:E2; [|discriminate]. injection H as <-. eapply (Step (- l)); eauto. lia.
Qed.

(* The valuation of a list of literals: what is not listed is false. *)
Definition val_of (a : list Z) : valuation := fun x => existsb (Z.eqb x) a.
Lemma val_of_true : forall a, Forall (fun l => l <> 0) a -> NoDup (map Z.abs a) -> forall l, In l a -> lit_true (val_of a) l = true.
Proof.
  intros a HN HD l Hl. rewrite Forall_forall in HN. unfold lit_true, val_of. destruct (Z.ltb_spec 0 l).
  - apply existsb_exists. exists l. split; auto. apply Z.eqb_refl.
  - apply negb_true_iff, not_true_is_false. intros E. apply existsb_exists in E as (x & Hx & E). apply Z.eqb_eq in E. subst x.
    specialize (HN l Hl). clear - HD Hl Hx H HN. induction a as [|y a IH]; [contradiction|]. cbn [map] in HD. inversion HD as [|z w Z1 Z2]; subst.
    destruct Hl as [->|Hl], Hx as [E|Hx]; try lia.
    + apply Z1. apply in_map_iff. exists (- l). split; auto. lia.
    + subst y. apply Z1. apply in_map_iff. exists l. split; auto. lia.
    + auto.
Qed.

Theorem solve_sat : forall cls a, legal cls -> solve cls = Some a ->
  Forall (fun l => l <> 0) a /\ NoDup (map Z.abs a) /\ (forall l, In l a -> mentions l cls) /\ clauses_true (val_of a) cls = true.
Proof.
  intros cls a HL H. destruct (solve_aux_some _ _ _ HL H) as (A1 & A2 & A3 & A4).
  split; auto. split; auto. split; auto. apply A4. now apply val_of_true.
Qed.
Theorem solve_unsat : forall cls, legal cls -> solve cls = None -> forall r, clauses_true r cls = false.
Proof. intros cls HL H. apply (solve_aux_none (size cls)); auto. Qed.

(* Deciding the satisfiability of a CNF. *)
Definition legalb (cls : list clause) : bool := forallb (forallb (fun l => negb (l =? 0))) cls.
Lemma legalb_ok : forall cls, legalb cls = true -> legal cls.
Proof.
  intros cls H. unfold legal. rewrite Forall_forall. intros cl Hc. rewrite Forall_forall. intros l Hl.
  unfold legalb in H. rewrite forallb_forall in H. specialize (H cl Hc). rewrite forallb_forall in H. specialize (H l Hl).
  apply negb_true_iff, Z.eqb_neq in H. exact H.
Qed.
Definition sat_cnf (f : CNF) : bool := match solve (sClauses f ++ cClauses f) with Some _ => true | None => false end.
Lemma sat_cnf_spec : forall f, legalb (sClauses f ++ cClauses f) = true ->
  (sat_cnf f = true <-> exists r, Con r f = true /\ Sem r f = true).
Proof.
  intros f L. apply legalb_ok in L. unfold sat_cnf. destruct (solve (sClauses f ++ cClauses f)) as [a|] eqn:E.
  - split; auto. intros _. destruct (solve_sat _ _ L E) as (_ & _ & _ & T). rewrite clauses_true_app, andb_true_iff in T.
    exists (val_of a). unfold Con, Sem. tauto.
  - split; [discriminate|]. intros (r & C & S). pose proof (solve_unsat _ L E r) as U. unfold Con, Sem in *.
    rewrite clauses_true_app, C, S in U. discriminate.
Qed.
