(* C36, C37: exactly when a component returns a CNF, an error, panics or loops,
   in every context and on every list of nodes. *)
From Verif Require Import GoBase GoLemmas Cnf Query QueryLemmas Walk Atoms Logop Spec Meaning CnfSem Sym AtomBase TreeLemmas WalkLemmas WalkConst Form AtomCnf Evolve Total Reach Outcome Errors PropAtoms.
From Coq Require Import Relations.
Local Open Scope string_scope.
Local Open Scope Z_scope.
Local Open Scope list_scope.

(* ---- specification ---- *)

Inductive ending := Returns | Fails | Panics | Loops.
Definition ends {A} (r : res A) (e : ending) : Prop :=
  match e with
  | Returns => exists a, r = Ok a
  | Fails => exists s, r = Err s
  | Panics => r = Panic
  | Loops => r = Hang
  end.

(* Constants of the model's dimension, no nil generator, a preference of
   features without repetition. *)
Definition well_formed (c : ctx) (a : atom) : Prop :=
  (forall k, In k (consts_of a) -> length (value c k) = Dim (cModel c)) /\
  gens_ok a /\ pref_valid (Dim (cModel c)) (pref_of a).

(* The node at position x is n, and n is not a leaf. *)
Definition inner_at (m : model) (x : Z) (n : node) : Prop :=
  0 <= x /\ nth_error (Nodes m) (Z.to_nat x) = Some n /\ IsLeaf n = false.
Definition leaf_at (m : model) (x : Z) : Prop :=
  exists n, 0 <= x /\ nth_error (Nodes m) (Z.to_nat x) = Some n /\ IsLeaf n = true.
Definition feat_ok (m : model) (n : node) : Prop := 0 <= nFeat n < Z.of_nat (Dim m).
Definition pos_ok (m : model) (x : Z) : Prop := 0 <= x < Z.of_nat (length (Nodes m)).
(* The instance's value for the feature the node tests. *)
Definition tested (e : inst) (n : node) : FeatV := nth (Z.to_nat (nFeat n)) e BOT.

(* IsNode of a constant follows the instance's values from the root.  Every
   value but 0 takes the second child. *)
Definition child_for (e : inst) (n : node) : Z := if tested e n =? ZERO then zChild n else oChild n.
Definition goes (m : model) (e : inst) (x y : Z) : Prop :=
  exists n, inner_at m x n /\ feat_ok m n /\ tested e n <> BOT /\ y = child_for e n /\ pos_ok m y.
Definition rests (m : model) (e : inst) (x : Z) : Prop :=
  leaf_at m x \/ exists n, inner_at m x n /\ feat_ok m n /\ tested e n = BOT.
Definition stuck (m : model) (e : inst) (x : Z) : Prop :=
  exists n, inner_at m x n /\ (~ feat_ok m n \/ (tested e n <> BOT /\ ~ pos_ok m (child_for e n))).
Definition arrives (m : model) (e : inst) : Z -> Z -> Prop := clos_refl_trans_1n Z (goes m e).

(* AllComp of a constant follows both children where the instance has no value
   and none where the value is no feature value. *)
Definition spreads (m : model) (e : inst) (x y : Z) : Prop :=
  exists n, inner_at m x n /\ feat_ok m n /\ pos_ok m y /\
    ((y = zChild n /\ (tested e n = ZERO \/ tested e n = BOT)) \/ (y = oChild n /\ (tested e n = ONE \/ tested e n = BOT))).
Definition covered (m : model) (e : inst) (x : Z) : Prop := clos_refl_trans Z (spreads m e) 0 x.
Definition bad_feature (m : model) (e : inst) : Prop :=
  exists x n, covered m e x /\ inner_at m x n /\ ~ feat_ok m n.
Definition bad_child (m : model) (e : inst) : Prop :=
  exists x n, covered m e x /\ inner_at m x n /\ feat_ok m n /\
    ((~ pos_ok m (zChild n) /\ (tested e n = ZERO \/ tested e n = BOT)) \/ (~ pos_ok m (oChild n) /\ (tested e n = ONE \/ tested e n = BOT))).

(* ---- proofs ---- *)

Lemma ends_det : forall A (r : res A) e e', ends r e -> ends r e' -> e = e'.
Proof.
  intros A r [] [] H H'; cbn [ends] in *; auto; repeat match goal with H : exists _, _ |- _ => destruct H end; congruence.
Qed.

Lemma enc_atom_ends : forall c a e, ends (atom_enc c a) e -> ends (fst (enc (QAtom a) c)) e.
Proof.
  intros c a e H. cbn [enc]. unfold enc_atom. destruct e; cbn [ends] in *.
  - destruct H as ([b|es] & ->); [cbn; eauto|]. destruct (run_emits (cVM c) es). cbn. eauto.
  - destruct H as (s & ->). cbn. eauto.
  - rewrite H. reflexivity.
  - rewrite H. reflexivity.
Qed.

Lemma at_nth : forall m x n, 0 <= x -> nth_error (Nodes m) (Z.to_nat x) = Some n -> at_ (Nodes m) x = n.
Proof. intros m x n H E. unfold at_. now apply nth_error_nth. Qed.
Lemma at_pos : forall m x, pos_ok m x -> nth_error (Nodes m) (Z.to_nat x) = Some (at_ (Nodes m) x).
Proof. intros m x [A B]. unfold at_. apply nth_error_nth'. lia. Qed.

Lemma next_goes : forall m e x, length e = Dim m -> pos_ok m x ->
  match next_of (Dim m) (Nodes m) e (at_ (Nodes m) x) with
  | Some y => goes m e x y
  | None => forall y, ~ goes m e x y
  end.
Proof.
  intros m e x He Hx. pose proof (at_pos m x Hx) as N. unfold next_of. set (n := at_ (Nodes m) x) in *.
  assert (U : forall y, goes m e x y -> IsLeaf n = false /\ feat_ok m n /\ tested e n <> BOT /\ y = child_for e n /\ pos_ok m y).
  { intros y (n' & (_ & N' & L) & F & T & Y & P). assert (n' = n) as -> by congruence. auto. }
  destruct (IsLeaf n) eqn:L; [intros y H; apply U in H; destruct H; discriminate|].
  destruct ((nFeat n <? 0) || _) eqn:F.
  { intros y H. apply U in H as (_ & F' & _). apply in_false in F'. congruence. }
  apply out_false in F. fold (tested e n). destruct (Z.eqb_spec (tested e n) BOT) as [T|T].
  { intros y H. apply U in H as (_ & _ & T' & _). contradiction. }
  cbv zeta. fold (child_for e n). destruct ((child_for e n <? 0) || _) eqn:P.
  { intros y H. apply U in H as (_ & _ & _ & -> & P'). apply in_false in P'. congruence. }
  apply out_false in P. exists n. repeat split; auto; try apply Hx; try apply F; apply P.
Qed.

Lemma isnode_step_ends : forall m e x visited, length e = Dim m -> length visited = Dim m -> pos_ok m x ->
  match isnode_step (Dim m) (Nodes m) e (at_ (Nodes m) x) visited with
  | Ok (inl (n', v')) => exists y, goes m e x y /\ pos_ok m y /\ n' = at_ (Nodes m) y /\ length v' = Dim m
  | Ok (inr _) => rests m e x
  | Err _ => stuck m e x
  | _ => False
  end.
Proof.
  intros m e x visited He Hv Hx. pose proof (at_pos m x Hx) as N. pose proof (next_goes m e x He Hx) as G. unfold next_of in G. unfold isnode_step.
  set (n := at_ (Nodes m) x) in *. assert (X0 : 0 <= x) by apply Hx.
  destruct (IsLeaf n) eqn:L; [left; exists n; auto|].
  destruct ((nFeat n <? 0) || _) eqn:F.
  { exists n. split; [split; auto|]. left. intros F'. apply in_false in F'. congruence. }
  apply out_false in F. rewrite (sget_ok _ e (nFeat n) (tested e n)); [|lia|apply nth_error_nth'; lia]. cbn [rbind].
  fold (tested e n) in G. destruct (Z.eqb_spec (tested e n) BOT) as [T|T].
  { right. exists n. repeat split; auto; apply F. }
  rewrite sset_ok by (rewrite Hv; lia). cbn [rbind]. cbv zeta in G. fold (child_for e n) in G.
  assert (S : (child_for e n <? 0) || (Z.of_nat (length (Nodes m)) <=? child_for e n) = true -> stuck m e x).
  { intros P. exists n. split; [split; auto|]. right. split; auto. intros P'. apply in_false in P'. congruence. }
  assert (K : forall y, y = child_for e n -> (y <? 0) || (Z.of_nat (length (Nodes m)) <=? y) = false ->
    match (rdo nd' <- sget (Nodes m) y ;; Ok (inl (B := list Z) (nd', list_set visited (Z.to_nat (nFeat n)) 1))) with
    | Ok (inl (n', v')) => exists y, goes m e x y /\ pos_ok m y /\ n' = at_ (Nodes m) y /\ length v' = Dim m
    | Ok (inr _) => rests m e x
    | Err _ => stuck m e x
    | _ => False end).
  { intros y -> P. rewrite P in G. apply out_false in P. rewrite sget_at by exact P. cbn [rbind].
    exists (child_for e n). split; [exact G|]. split; [exact P|]. split; [reflexivity|]. now rewrite list_set_length. }
  clear G. unfold child_for in S, K. revert S K. destruct (tested e n =? ZERO); intros S K; destruct (_ || _) eqn:P; first [exact (S eq_refl)|exact (K _ eq_refl P)].
Qed.

Lemma isnode_loop_ends : forall m e, length e = Dim m -> forall fuel x visited, length visited = Dim m -> pos_ok m x ->
  match isnode_loop fuel (Dim m) (Nodes m) e (at_ (Nodes m) x) visited with
  | Ok _ => exists y, arrives m e x y /\ rests m e y
  | Err _ => exists y, arrives m e x y /\ stuck m e y
  | Panic => False
  | Hang => True
  end.
Proof.
  intros m e He fuel. induction fuel as [|fuel IH]; intros x visited Hv Hx; [exact Logic.I|]. cbn [isnode_loop].
  pose proof (isnode_step_ends m e x visited He Hv Hx) as H. destruct (isnode_step _ _ _ _ _) as [[[n' v']|v']|s| |]; cbn [rbind]; auto.
  - destruct H as (y & G & P & -> & L). specialize (IH y v' L P). destruct (isnode_loop _ _ _ _ _ _); auto.
    + destruct IH as (z & A & R). exists z. split; auto. eapply Relation_Operators.rt1n_trans; eauto.
    + destruct IH as (z & A & R). exists z. split; auto. eapply Relation_Operators.rt1n_trans; eauto.
  - exists x. split; [constructor|exact H].
  - exists x. split; [constructor|exact H].
Qed.

Lemma arrives_walk : forall m e x y, length e = Dim m -> arrives m e x y -> pos_ok m x ->
  pos_ok m y /\ exists k, walk_to (fun z => next_of (Dim m) (Nodes m) e (at_ (Nodes m) z)) k x = Some y.
Proof.
  intros m e x y He A. induction A as [x|x y z G A IH]; intros P.
  - split; auto. exists 0%nat. reflexivity.
  - assert (PY : pos_ok m y) by (destruct G as (n & _ & _ & _ & _ & P'); exact P'). destruct (IH PY) as (PZ & k & W). split; auto. exists (S k). cbn [walk_to].
    pose proof (next_goes m e x He P) as N. destruct (next_of _ _ _ _) as [y'|].
    + assert (y' = y) as ->; [|exact W]. destruct G as (n & (_ & E & _) & _ & _ & -> & _). destruct N as (n' & (_ & E' & _) & _ & _ & -> & _). congruence.
    + exfalso. eapply N; eauto.
Qed.

(* IsNode of a constant of the right dimension on a non-empty list of nodes. *)
Lemma isnode_ends : forall m k, length (cVal k) = Dim m -> Nodes m <> [] ->
  (exists r, isnode_const (Dim m) (Nodes m) k = Ok r) /\ (exists y, arrives m (cVal k) 0 y /\ rests m (cVal k) y) \/
  (exists s, isnode_const (Dim m) (Nodes m) k = Err s) /\ (exists y, arrives m (cVal k) 0 y /\ stuck m (cVal k) y) \/
  isnode_const (Dim m) (Nodes m) k = Hang /\ (forall y, arrives m (cVal k) 0 y -> exists z, goes m (cVal k) y z).
Proof.
  intros m k Hk NE. unfold isnode_const. destruct (Nodes m) as [|root l] eqn:E; [congruence|]. rewrite <- E.
  assert (P0 : pos_ok m 0) by (unfold pos_ok; rewrite E; simpl; lia).
  assert (R : root = at_ (Nodes m) 0) by (rewrite E; reflexivity).
  assert (LV : length (newVisitRecord k) = Dim m) by (unfold newVisitRecord; rewrite map_length; exact Hk).
  pose proof (isnode_loop_ends m (cVal k) Hk (isnode_fuel (Nodes m)) 0 (newVisitRecord k) LV P0) as H.
  pose proof (isnode_loop_walk (Dim m) (Nodes m) (cVal k) Hk (isnode_fuel (Nodes m)) 0 (newVisitRecord k) LV P0) as W. cbv zeta in W.
  rewrite R. destruct (isnode_loop _ _ _ _ _ _) as [vr|s| |] eqn:EL; cbn [rbind].
  - left. split; eauto.
  - right; left. split; eauto.
  - contradiction.
  - right; right. split; [reflexivity|]. destruct W as [[_ W]|[[(v & B)|(v & B)] _]]; [|discriminate|discriminate].
    intros y A. destruct (arrives_walk m _ _ _ Hk A P0) as (PY & j & J).
    assert (NW : forall i, walk_to (fun z => next_of (Dim m) (Nodes m) (cVal k) (at_ (Nodes m) z)) i 0 <> None).
    { apply (walk_pigeon _ (length (Nodes m)) 0); [| |].
      - intros u z _ Hz. apply (next_of_range _ _ _ _ _ Hz).
      - exact P0.
      - eapply walk_to_le; [|exact W]. unfold isnode_fuel. lia. }
    specialize (NW (j + 1)%nat). rewrite walk_to_add, J in NW. cbn [walk_to] in NW. pose proof (next_goes m (cVal k) y Hk PY) as G.
    destruct (next_of _ _ _ _); [eauto|congruence].
Qed.

(* AllComp of a constant. *)
Lemma ac_push_ends : forall m stack visited child,
  match ac_push (Nodes m) (stack, visited) child with
  | Ok (stack', _) => stack' = stack \/ (pos_ok m child /\ stack' = at_ (Nodes m) child :: stack)
  | Err _ => False
  | Panic => ~ pos_ok m child
  | Hang => False
  end.
Proof.
  intros m stack visited child. unfold ac_push. destruct (existsb _ _); [auto|]. unfold sget.
  destruct (Z.ltb_spec child 0) as [L|L]; cbn [rbind].
  - unfold pos_ok. lia.
  - destruct (nth_error (Nodes m) (Z.to_nat child)) as [n|] eqn:E; cbn [rbind].
    + right. assert (P : pos_ok m child) by (assert (Z.to_nat child < length (Nodes m))%nat by (apply nth_error_Some; congruence); unfold pos_ok; lia).
      split; [exact P|]. f_equal. pose proof (at_pos m child P). congruence.
    + apply nth_error_None in E. unfold pos_ok. lia.
Qed.

Lemma ac_loop_ends : forall m e b, length e = Dim m -> forall fuel stack visited,
  (forall n, In n stack -> exists x, covered m e x /\ pos_ok m x /\ n = at_ (Nodes m) x) ->
  match ac_loop fuel (Dim m) (Nodes m) e b (stack, visited) with
  | Ok _ => True
  | Err _ => bad_feature m e
  | Panic => bad_child m e
  | Hang => True
  end.
Proof.
  intros m e b He fuel. induction fuel as [|fuel IH]; intros stack visited H; [exact Logic.I|]. cbn [ac_loop].
  destruct stack as [|n stack]; [exact Logic.I|]. destruct (H n (or_introl eq_refl)) as (x & C & P & E).
  assert (H' : forall n, In n stack -> exists x, covered m e x /\ pos_ok m x /\ n = at_ (Nodes m) x) by (intros; apply H; right; assumption).
  destruct (IsLeaf n) eqn:L; [destruct (eqb (nValue n) b); [now apply IH|exact Logic.I]|].
  assert (IN : inner_at m x n) by (split; [apply P|]; split; [rewrite (at_pos m x P), E; reflexivity|exact L]).
  destruct ((nFeat n <? 0) || _) eqn:F.
  { exists x, n. split; [exact C|]. split; [exact IN|]. intros F'. apply in_false in F'. congruence. }
  apply out_false in F. rewrite (sget_ok _ e (nFeat n) (tested e n)); [|lia|apply nth_error_nth'; lia]. cbn [rbind].
  assert (G : forall y st, ((y = zChild n /\ (tested e n = ZERO \/ tested e n = BOT)) \/ (y = oChild n /\ (tested e n = ONE \/ tested e n = BOT))) ->
    (forall n, In n (fst st) -> exists x, covered m e x /\ pos_ok m x /\ n = at_ (Nodes m) x) ->
    match ac_push (Nodes m) st y with
    | Ok st' => forall n, In n (fst st') -> exists x, covered m e x /\ pos_ok m x /\ n = at_ (Nodes m) x
    | Panic => bad_child m e
    | _ => False end).
  { intros y [st vis] Y Hst. cbn [fst] in Hst. pose proof (ac_push_ends m st vis y) as A. destruct (ac_push (Nodes m) (st, vis) y) as [[st' vis']|s| |]; auto.
    - cbn [fst]. destruct A as [->|[PY ->]]; [exact Hst|]. intros z [<-|Hz]; [|now apply Hst].
      exists y. split; [|split; [exact PY|reflexivity]]. eapply rt_trans; [exact C|]. apply rt_step. exists n. split; [exact IN|]. split; [exact F|]. split; assumption.
    - exists x, n. split; [exact C|]. split; [exact IN|]. split; [exact F|]. destruct Y as [[-> T]|[-> T]]; auto. }
  destruct (Z.eqb_spec (tested e n) BOT) as [T|T]; [|destruct (Z.eqb_spec (tested e n) ZERO) as [T0|T0]; [|destruct (Z.eqb_spec (tested e n) ONE) as [T1|T1]]].
  - pose proof (G (zChild n) (stack, visited) ltac:(auto) H') as G1. destruct (ac_push (Nodes m) (stack, visited) (zChild n)) as [st1|s| |]; cbn [rbind]; auto; try contradiction.
    pose proof (G (oChild n) st1 ltac:(auto) G1) as G2. destruct (ac_push (Nodes m) st1 (oChild n)) as [[st2 v2]|s| |]; cbn [rbind]; [apply IH; exact G2|contradiction|exact G2|contradiction].
  - pose proof (G (zChild n) (stack, visited) ltac:(auto) H') as G1. destruct (ac_push (Nodes m) (stack, visited) (zChild n)) as [[st1 v1]|s| |]; cbn [rbind]; [apply IH; exact G1|contradiction|exact G1|contradiction].
  - pose proof (G (oChild n) (stack, visited) ltac:(auto) H') as G1. destruct (ac_push (Nodes m) (stack, visited) (oChild n)) as [[st1 v1]|s| |]; cbn [rbind]; [apply IH; exact G1|contradiction|exact G1|contradiction].
  - cbn [rbind]. apply IH. exact H'.
Qed.

Lemma allcomp_ends : forall m k b, length (cVal k) = Dim m -> Nodes m <> [] ->
  match allcomp_const (Dim m) (Nodes m) k b with
  | Ok _ => True
  | Err _ => bad_feature m (cVal k)
  | Panic => bad_child m (cVal k)
  | Hang => False
  end.
Proof.
  intros m k b Hk NE. pose proof (allcomp_no_hang (Dim m) (Nodes m) k b Hk) as NH. unfold allcomp_const in *. destruct (Nodes m) as [|root l] eqn:E; [congruence|]. rewrite <- E in *.
  assert (P0 : pos_ok m 0) by (unfold pos_ok; rewrite E; simpl; lia).
  pose proof (ac_loop_ends m (cVal k) b Hk (allcomp_fuel (Nodes m)) [root] []) as H.
  destruct (ac_loop _ _ _ _ _ _); auto; apply H; intros n [<-|[]]; exists 0; (split; [apply rt_refl|]; split; [exact P0|]; rewrite E; reflexivity).
Qed.

(* ---- the components ---- *)

(* How a well-formed component ends. *)
Definition expected (c : ctx) (a : atom) (e : ending) : Prop :=
  let m := cModel c in
  let ok := Forall (node_valid (Dim m) (length (Nodes m))) (Nodes m) in
  match a, e with
  | NodeV _ _, Returns => Nodes m <> [] /\ forall x n, inner_at m x n -> feat_ok m n
  | NodeV _ _, Fails => Nodes m = []
  | NodeV _ _, Panics => exists x n, inner_at m x n /\ ~ feat_ok m n
  | NodeC k, Returns => Nodes m <> [] /\ exists y, arrives m (value c k) 0 y /\ rests m (value c k) y
  | NodeC k, Fails => Nodes m = [] \/ exists y, arrives m (value c k) 0 y /\ stuck m (value c k) y
  | NodeC k, Loops => Nodes m <> [] /\ forall y, arrives m (value c k) 0 y -> exists z, goes m (value c k) y z
  | AllV _ _ _, Returns => Nodes m <> []
  | AllV _ _ _, Fails => Nodes m = []
  | (DfsV _ | DfsC _), Returns => ok /\ exists x, reachable (Nodes m) x /\ leaf_at m x
  | (DfsV _ | DfsC _), Fails => ~ ok \/ (Nodes m <> [] /\ forall x, reachable (Nodes m) x -> ~ leaf_at m x)
  | (DfsV _ | DfsC _), Panics => Nodes m = []
  | (HeprVV _ _ p _ | HeprVC _ _ p _ | HeprCV _ _ p _), Returns => p <> []
  | (HeprVV _ _ p _ | HeprVC _ _ p _ | HeprCV _ _ p _), Panics => p = []
  | (LehVVC _ _ _ _ _ | LehVCV _ _ _ _ _ | LehCVV _ _ _ _ | LehVCC _ _ _ _), Returns => (0 < Dim m)%nat
  | (LehVVC _ _ _ _ _ | LehVCV _ _ _ _ _ | LehCVV _ _ _ _ | LehVCC _ _ _ _), Panics => Dim m = 0%nat
  | (NodeV _ _ | NodeC _ | AllV _ _ _ | DfsV _ | DfsC _ | HeprVV _ _ _ _ | HeprVC _ _ _ _ | HeprCV _ _ _ _
    | LehVVC _ _ _ _ _ | LehVCV _ _ _ _ _ | LehCVV _ _ _ _ | LehVCC _ _ _ _), _ => False
  | _, _ => e = Returns
  end.
Definition how (c : ctx) (a : atom) (e : ending) : Prop :=
  (~ well_formed c a /\ e = Fails) \/ (well_formed c a /\ expected c a e).

Lemma gens_dec : forall a, gens_ok a \/ ~ gens_ok a.
Proof.
  intros a. destruct a; cbn [gens_ok]; auto;
    repeat match goal with g : gen1 |- _ => destruct g | g : gen2 |- _ => destruct g | g : gen3 |- _ => destruct g end;
    solve [left; (discriminate || split; discriminate)|right; intros H; (destruct H; congruence) || congruence].
Qed.
Lemma well_formed_dec : forall c a, well_formed c a \/ ~ well_formed c a.
Proof.
  intros c a. unfold well_formed. destruct (gens_dec a) as [G|G]; [|right; tauto].
  destruct (validatePref (pref_of a) (Dim (cModel c))) as [e|] eqn:P.
  { right. intros (_ & _ & V). apply validatePref_valid in V. congruence. }
  apply validatePref_valid in P.
  destruct (Forall_dec (fun k => length (value c k) = Dim (cModel c)) (fun k => Nat.eq_dec _ _) (consts_of a)) as [H|H].
  - left. rewrite Forall_forall in H. auto.
  - right. intros (K & _). apply H, Forall_forall. exact K.
Qed.

Lemma ill_formed_fails : forall c a, sc_inv (cScoper c) -> ~ well_formed c a -> fails (atom_enc c a).
Proof.
  intros c a J N. destruct (gens_dec a) as [G|G]; [|now apply atom_nil_gen].
  destruct (validatePref (pref_of a) (Dim (cModel c))) as [e|] eqn:P.
  { apply atom_bad_pref; auto. intros V. apply validatePref_valid in V. congruence. }
  apply validatePref_valid in P.
  destruct (Exists_dec (fun k => length (value c k) <> Dim (cModel c)) (consts_of a)) as [H|H].
  { intros k. destruct (Nat.eq_dec (length (value c k)) (Dim (cModel c))); [right; tauto|left; auto]. }
  - apply Exists_exists in H as (k & Hk & L). now apply (atom_bad_const c a k).
  - exfalso. apply N. split; auto. intros k Hk. destruct (Nat.eq_dec (length (value c k)) (Dim (cModel c))); auto.
    exfalso. apply H, Exists_exists. eauto.
Qed.

Lemma node_valid_dec : forall d l n, node_valid d l n \/ ~ node_valid d l n.
Proof.
  intros d l n. destruct (validateNode n d l) as [e|] eqn:E; [right; intros H; apply validateNode_iff in H; congruence|left; now apply validateNode_iff].
Qed.
Lemma nodes_valid_dec : forall d l ns, Forall (node_valid d l) ns \/ ~ Forall (node_valid d l) ns.
Proof.
  intros d l ns. destruct (validateNodes ns d l) as [e|] eqn:E; [right; intros H; apply validateNodes_iff in H; congruence|left; now apply validateNodes_iff].
Qed.

Lemma inner_feats_dec : forall m, (forall x n, inner_at m x n -> feat_ok m n) \/ (exists x n, inner_at m x n /\ ~ feat_ok m n).
Proof.
  intros m. destruct (Exists_dec (fun n => IsLeaf n = false /\ ~ feat_ok m n) (Nodes m)) as [H|H].
  - intros n. destruct (IsLeaf n); [right; intros []; discriminate|]. destruct (Z_le_dec 0 (nFeat n)), (Z_lt_dec (nFeat n) (Z.of_nat (Dim m))); unfold feat_ok;
      try (left; split; [reflexivity|lia]); right; intros [_ X]; apply X; lia.
  - right. apply Exists_exists in H as (n & Hn & L & F). apply In_nth_error in Hn as (k & Hk). exists (Z.of_nat k), n. split; [|exact F].
    split; [lia|]. rewrite Nat2Z.id. auto.
  - left. intros x n (X & E & L). destruct (Z_le_dec 0 (nFeat n)), (Z_lt_dec (nFeat n) (Z.of_nat (Dim m))); unfold feat_ok; try lia;
      exfalso; apply H, Exists_exists; exists n; (split; [eapply nth_error_In; eauto|]; split; [exact L|]; unfold feat_ok; lia).
Qed.

(* Writing the clauses of isnode/var.go panics at an inner node with a feature
   out of range. *)
Lemma fcl_step_ok : forall r fcl i n, isnode_fcl_step r (Ok fcl) (i, n) =
  if IsLeaf n then Ok fcl else rdo cl <- sget fcl (nFeat n) ;; sset fcl (nFeat n) (cl ++ [Lp r 0 i]).
Proof. reflexivity. Qed.
Lemma fcl_bad : forall r dim (l : list (Z * node)) fcl, length fcl = dim ->
  (exists p, In p l /\ IsLeaf (snd p) = false /\ ~ (0 <= nFeat (snd p) < Z.of_nat dim)) ->
  fold_left (isnode_fcl_step r) l (Ok fcl) = Panic.
Proof.
  assert (S : forall r l, fold_left (isnode_fcl_step r) l Panic = Panic) by (intros r l; induction l as [|p l IH]; auto).
  intros r dim l. induction l as [|[i n] l IH]; intros fcl L (p & Hp & Lp & F); [destruct Hp|].
  cbn [fold_left]. rewrite fcl_step_ok.
  assert (T : In p l -> exists p, In p l /\ IsLeaf (snd p) = false /\ ~ (0 <= nFeat (snd p) < Z.of_nat dim)) by eauto.
  destruct (IsLeaf n) eqn:EL.
  - apply IH; auto. destruct Hp as [<-|Hp]; [cbn [snd] in Lp; congruence|auto].
  - unfold sget. destruct (Z.ltb_spec (nFeat n) 0) as [N0|N0]; [apply S|].
    destruct (nth_error fcl (Z.to_nat (nFeat n))) as [cl|] eqn:E; cbn [rbind]; [|apply S].
    assert (B : (Z.to_nat (nFeat n) < length fcl)%nat) by (apply nth_error_Some; congruence).
    rewrite sset_ok by lia. apply IH; [now rewrite list_set_length|]. destruct Hp as [<-|Hp]; [cbn [snd] in F; lia|auto].
Qed.
Lemma mapi_pair_in : forall (l : list node) i n, In n l -> exists p, In p (mapi_from i pair l) /\ snd p = n.
Proof. induction l as [|a l IH]; intros i n H; [destruct H|]. destruct H as [<-|H]; simpl; [exists (i, a); auto|]. destruct (IH (i + 1) n H) as (p & A & B). eauto. Qed.

Lemma fcl_returns : forall r dim (l : list (Z * node)) fcl, length fcl = dim ->
  (forall p, In p l -> IsLeaf (snd p) = false -> 0 <= nFeat (snd p) < Z.of_nat dim) ->
  exists out, fold_left (isnode_fcl_step r) l (Ok fcl) = Ok out.
Proof.
  intros r dim l. induction l as [|[i n] l IH]; intros fcl L H; [exists fcl; reflexivity|].
  cbn [fold_left]. rewrite fcl_step_ok. destruct (IsLeaf n) eqn:EL.
  - apply IH; auto. intros p Hp. apply H. now right.
  - pose proof (H (i, n) (or_introl eq_refl) EL) as B. cbn [snd] in B.
    assert (E : exists cl, sget fcl (nFeat n) = Ok cl).
    { unfold sget. destruct (Z.ltb_spec (nFeat n) 0); [lia|]. destruct (nth_error fcl (Z.to_nat (nFeat n))) eqn:En; eauto. apply nth_error_None in En. lia. }
    destruct E as (cl & ->). cbn [rbind]. rewrite sset_ok by (rewrite L; lia).
    apply IH; [now rewrite list_set_length|]. intros p Hp. apply H. now right.
Qed.
Lemma dfs_var_returns : forall dim v l, (forall p, In p l -> length (cVal (fst p)) = dim /\ length (cVal (snd p)) = dim) ->
  exists cls, dfs_var_loop dim v l = Ok cls.
Proof.
  intros dim v l. induction l as [|[a b] l IH]; intros H; [simpl; eauto|]. cbn [dfs_var_loop]. destruct (H (a, b) (or_introl eq_refl)) as [A B]. cbn [fst snd] in A, B.
  unfold notAWitnessClause. rewrite A, B, Nat.eqb_refl. cbn [negb orb rbind].
  destruct IH as (cls & ->); [intros p Hp; apply H; now right|]. cbn [rbind]. eauto.
Qed.
Lemma dfs_const_returns : forall c l, (forall p, In p l -> length (cVal (fst p)) = length (cVal c) /\ length (cVal (snd p)) = length (cVal c)) ->
  exists b, dfs_const_loop c l = Ok b.
Proof.
  intros c l. induction l as [|[a b] l IH]; intros H; [simpl; eauto|]. cbn [dfs_const_loop]. destruct (H (a, b) (or_introl eq_refl)) as [A B]. cbn [fst snd] in A, B.
  unfold leafCompare. rewrite A, B, Nat.eqb_refl. cbn [negb orb rbind]. destruct (existsb _ _); cbn [negb]; [|eauto].
  apply IH. intros p Hp. apply H. now right.
Qed.

Lemma leafs_ends : forall m,
  (Nodes m = [] /\ leafsAsConsts (Dim m) (Nodes m) = Panic) \/
  (~ Forall (node_valid (Dim m) (length (Nodes m))) (Nodes m) /\ exists e, leafsAsConsts (Dim m) (Nodes m) = Err e) \/
  (Nodes m <> [] /\ Forall (node_valid (Dim m) (length (Nodes m))) (Nodes m) /\ exists ps ns, leafsAsConsts (Dim m) (Nodes m) = Ok (ps, ns) /\
    Forall (fun c => length (cVal c) = Dim m) ps /\ Forall (fun c => length (cVal c) = Dim m) ns /\
    if (length ps =? 0)%nat && (length ns =? 0)%nat then forall x, reachable (Nodes m) x -> ~ leaf_at m x
    else exists x, reachable (Nodes m) x /\ leaf_at m x).
Proof.
  intros m. destruct (Nodes m) as [|r l] eqn:EN; [left; split; [reflexivity|]; reflexivity|right]. rewrite <- EN.
  assert (NE : Nodes m <> []) by (rewrite EN; discriminate).
  destruct (nodes_valid_dec (Dim m) (length (Nodes m)) (Nodes m)) as [V|V].
  2:{ left. split; [exact V|]. unfold leafsAsConsts. destruct (validateNodes _ _ _) eqn:E; [eauto|]. apply validateNodes_iff in E. contradiction. }
  right. split; [exact NE|]. split; [exact V|].
  destruct (C57_leafs (Dim m) (Nodes m) NE V) as (ps & ns & E & _ & P & _ & N & _).
  destruct (leafs_total (Dim m) (Nodes m) NE) as [(e & E')|(p & n & E' & LP & LN)]; [congruence|].
  assert (p = map (fun e => mkQConst "" (snd e)) ps /\ n = map (fun e => mkQConst "" (snd e)) ns) as [-> ->] by (split; congruence).
  eexists _, _. split; [exact E|]. split; [exact LP|]. split; [exact LN|]. rewrite !map_length.
  assert (K : forall x v, leaf_in (Nodes m) v x -> reachable (Nodes m) x /\ leaf_at m x).
  { intros x v (R & n & E1 & E2 & _). split; [exact R|]. exists n. split; [|auto].
    clear - R V E1. apply clos_rt_rtn1_iff in R. inversion R as [|y z (n' & Y & Ey & L & Z) _]; [lia|]. subst.
    rewrite Forall_forall in V. destruct (V _ (nth_error_In _ _ Ey)) as [X|(_ & X1 & X2)]; [congruence|]. lia. }
  destruct ps as [|[x t] ps]; [destruct ns as [|[x t] ns]|]; cbn [length Nat.eqb andb].
  - intros x R (n & _ & E1 & E2). assert (H : leaf_in (Nodes m) (nValue n) x) by (split; [exact R|]; exists n; auto).
    destruct (nValue n); [apply P in H|apply N in H]; destruct H.
  - exists x. apply (K x false). apply N. now left.
  - exists x. apply (K x true). apply P. now left.
Qed.

Definition not_AllC (a : atom) : Prop := match a with AllC _ _ => False | _ => True end.

Ltac returns := exists Returns; split; [|cbn [ends]; eauto].
Ltac fails_ := exists Fails; split; [|cbn [ends]; eauto].
Ltac panics := exists Panics; split; [|cbn [ends]; try reflexivity].
Ltac scoped J := repeat match goal with
  | |- context [ScopeVar ?s ?v] => rewrite (ScopeVar_ok s v J); cbn [rbind] end.


Lemma dims_ok_one : forall d k, length (cVal k) = d -> ValidateConstsDim d [k] = None.
Proof. intros d k H. unfold ValidateConstsDim. cbn [validate_from]. rewrite H, Nat.eqb_refl. reflexivity. Qed.
Lemma dims_ok_two : forall d k l, length (cVal k) = d -> length (cVal l) = d -> ValidateConstsDim d [k; l] = None.
Proof. intros d k l H1 H2. unfold ValidateConstsDim. cbn [validate_from]. rewrite H1, H2, Nat.eqb_refl. reflexivity. Qed.
Lemma dims_ok_three : forall d k l o, length (cVal k) = d -> length (cVal l) = d -> length (cVal o) = d -> ValidateConstsDim d [k; l; o] = None.
Proof. intros d k l o H1 H2 H3. unfold ValidateConstsDim. cbn [validate_from]. rewrite H1, H2, H3, Nat.eqb_refl. reflexivity. Qed.

Lemma isnode_fcl_ends : forall m v r,
  ((forall x n, inner_at m x n -> feat_ok m n) /\ exists out, isnode_fcl (Z.of_nat (Dim m)) (Nodes m) v r = Ok out) \/
  ((exists x n, inner_at m x n /\ ~ feat_ok m n) /\ isnode_fcl (Z.of_nat (Dim m)) (Nodes m) v r = Panic).
Proof.
  intros m v r. assert (LF : length (map (fun i => [Lp v i BOT]) (zrange 0 (Z.of_nat (Dim m)))) = Dim m)
      by (rewrite map_length; unfold zrange; rewrite map_length, seq_length; lia).
  destruct (inner_feats_dec m) as [F|(x & n & I & F)]; [left|right].
  - split; [exact F|]. apply (fcl_returns r (Dim m) _ _ LF).
    intros p Hp L. apply mapi_pair_snd in Hp. apply In_nth_error in Hp as (k & Hk). apply (F (Z.of_nat k) (snd p)). split; [lia|]. rewrite Nat2Z.id. auto.
  - split; [eauto|]. destruct I as (X & E & L). destruct (mapi_pair_in (Nodes m) 0 n (nth_error_In _ _ E)) as (p & Hp & <-).
    apply (fcl_bad r (Dim m) _ _ LF). exists p. auto.
Qed.

Ltac leh_ends WK :=
  match goal with |- exists e, _ /\ ends (if _ then _ else first_feat (Dim (cModel ?c)) _) e =>
    assert (Z0 : Dim (cModel c) = 0%nat -> forall k, length (cVal (fst (ScopeConst (cScoper c) k))) = Dim (cModel c) -> IsFull (fst (ScopeConst (cScoper c) k)) = true)
      by (clear; intros E k H; rewrite E in H; unfold IsFull; destruct (cVal (fst (ScopeConst (cScoper c) k))); [reflexivity|discriminate]);
    destruct (Dim (cModel c)) as [|d] eqn:ED;
    [rewrite !Z0 by (auto; apply WK; cbn; auto); panics; auto
    |clear Z0; returns; [lia|]; cbn [first_feat]; match goal with |- context [if ?b then _ else _] => destruct b end; eauto]
  end.

Lemma how_ends : forall c a, sc_inv (cScoper c) -> not_AllC a -> exists e, how c a e /\ ends (atom_enc c a) e.
Proof.
  intros c a J NA.
  destruct (well_formed_dec c a) as [W|W].
  2:{ exists Fails. split; [left; auto|]. destruct (ill_formed_fails c a J W) as (e & ->). cbn. eauto. }
  assert (X : exists e, expected c a e /\ ends (atom_enc c a) e); [|destruct X as (e & X1 & X2); exists e; split; [right; auto|exact X2]].
  destruct W as (WK & WG & WP). unfold value in WK. unfold atom_enc.
  destruct a; cbn [not_AllC] in NA; try contradiction; cbn [consts_of gens_ok pref_of expected] in *;
    repeat match goal with g : gen1 |- _ => destruct g | g : gen2 |- _ => destruct g | g : gen3 |- _ => destruct g end;
    try (exfalso; (destruct WG; congruence) || congruence); cbn [need guard];
    try (apply validatePref_valid in WP; rewrite WP; cbn [guard]);
    scoped J;
    rewrite ?dims_ok_one, ?dims_ok_two, ?dims_ok_three by (apply WK; cbn [In]; auto); cbn [guard];
    try solve [returns; [reflexivity]].
  - (* NodeV *) set (m := cModel c) in *. destruct (Nodes m) as [|r l] eqn:EN; [fails_; reflexivity|]. rewrite <- EN.
    assert (NE : Nodes m <> []) by (rewrite EN; discriminate).
    destruct (isnode_fcl_ends m (scoped_name v (firstn (lvl_of (cScoper c) v) (scopes (cScoper c)))) (s (scoped_name v (firstn (lvl_of (cScoper c) v) (scopes (cScoper c))))))
      as [[F (out & ->)]|[F ->]]; cbn [rbind].
    + returns. auto.
    + panics. exact F.
  - (* NodeC *) set (m := cModel c) in *. assert (LK : length (cVal (fst (ScopeConst (cScoper c) c0))) = Dim m) by (apply WK; cbn; auto).
    destruct (Nodes m) as [|r l] eqn:EN; [fails_; [now left|]; unfold isnode_const; cbn; eauto|]. rewrite <- EN.
    assert (NE : Nodes m <> []) by (rewrite EN; discriminate). fold (value c c0).
    destruct (isnode_ends m _ LK NE) as [[(b & ->) H]|[[(e & ->) H]|[-> H]]]; cbn [rbool rbind].
    + returns; auto.
    + fails_; auto.
    + exists Loops. split; [auto|reflexivity].
  - (* AllV *) destruct (Nodes (cModel c)); [fails_; reflexivity|returns; discriminate].
  - (* DfsV *) set (m := cModel c) in *. destruct (leafs_ends m) as [[EN E]|[[V (e & E)]|(NE & V & ps & ns & E & LP & LN & H)]]; rewrite E; cbn [rbind].
    + panics; auto.
    + fails_; auto.
    + destruct (_ && _)%bool; [fails_; auto|]. rewrite Forall_forall in LP, LN.
      match goal with |- context [dfs_var_loop ?d ?v ?l] => destruct (dfs_var_returns d v l) as (cls & ->) end; [|cbn [rbind]; returns; auto].
      intros [x y] Hx. apply in_prod_iff in Hx as [Hx Hy]. cbn [fst snd]. auto.
  - (* DfsC *) set (m := cModel c) in *. assert (LK : length (cVal (fst (ScopeConst (cScoper c) c0))) = Dim m) by (apply WK; cbn; auto).
    destruct (leafs_ends m) as [[EN E]|[[V (e & E)]|(NE & V & ps & ns & E & LP & LN & H)]]; rewrite E; cbn [rbind].
    + panics; auto.
    + fails_; auto.
    + destruct (_ && _)%bool; [fails_; auto|]. rewrite Forall_forall in LP, LN.
      match goal with |- context [dfs_const_loop ?d ?l] => destruct (dfs_const_returns d l) as (cls & ->) end; [|cbn [rbool rbind]; returns; auto].
      intros [x y] Hx. apply in_prod_iff in Hx as [Hx Hy]. cbn [fst snd]. rewrite LK. auto.
  - destruct pref; [panics; auto|returns; discriminate].
  - destruct pref; [panics; auto|returns; discriminate].
  - destruct pref; [panics; auto|returns; discriminate].
  - leh_ends WK.
  - leh_ends WK.
  - leh_ends WK.
  - leh_ends WK.
  - returns; [reflexivity|]. destruct (_ || _)%bool; [eauto|]. destruct (_ =? _); eauto.
  - returns; [reflexivity|]. destruct (_ || _)%bool; [eauto|]. destruct (_ =? _); eauto.
  - returns; [reflexivity|]. destruct (_ || _)%bool; eauto.
Qed.

(* The cases exclude each other. *)
Lemma inner_fun : forall m x n n', inner_at m x n -> inner_at m x n' -> n' = n.
Proof. intros m x n n' (_ & E & _) (_ & E' & _). congruence. Qed.
Lemma leaf_inner : forall m x n, leaf_at m x -> inner_at m x n -> False.
Proof. intros m x n (n' & _ & E & L) (_ & E' & L'). congruence. Qed.
Lemma goes_fun : forall m e x y y', goes m e x y -> goes m e x y' -> y' = y.
Proof. intros m e x y y' (n & I & _ & _ & -> & _) (n' & I' & _ & _ & -> & _). now rewrite (inner_fun _ _ _ _ I I'). Qed.
Lemma rests_goes : forall m e x y, rests m e x -> goes m e x y -> False.
Proof.
  intros m e x y [L|(n & I & _ & T)] (n' & I' & _ & T' & _); [eapply leaf_inner; eauto|]. pose proof (inner_fun _ _ _ _ I I'). congruence.
Qed.
Lemma stuck_goes : forall m e x y, stuck m e x -> goes m e x y -> False.
Proof.
  intros m e x y (n & I & S) (n' & I' & F & T' & Y & P). pose proof (inner_fun _ _ _ _ I I') as ->. subst y. destruct S as [S|[_ S]]; auto.
Qed.
Lemma stuck_rests : forall m e x, stuck m e x -> rests m e x -> False.
Proof.
  intros m e x (n & I & S) [L|(n' & I' & F & T)]; [eapply leaf_inner; eauto|]. pose proof (inner_fun _ _ _ _ I I') as ->. destruct S as [S|[S _]]; auto.
Qed.
Lemma arrives_end : forall m e x y y', arrives m e x y -> arrives m e x y' -> (forall z, ~ goes m e y z) -> arrives m e y' y.
Proof.
  intros m e x y y' A. induction A as [x|x z y G A IH]; intros A' E.
  - inversion A' as [|z ? G _]; subst; [constructor|]. destruct (E _ G).
  - inversion A' as [|z' ? G' A1]; subst; [eapply Relation_Operators.rt1n_trans; eauto|].
    rewrite (goes_fun _ _ _ _ _ G G') in A1. now apply IH.
Qed.
Lemma arrives_fun : forall m e x y y', arrives m e x y -> arrives m e x y' -> (forall z, ~ goes m e y z) -> (forall z, ~ goes m e y' z) -> y' = y.
Proof.
  intros m e x y y' A A' E E'. pose proof (arrives_end _ _ _ _ _ A A' E) as B. inversion B as [|z ? G _]; subst; [reflexivity|]. destruct (E' _ G).
Qed.

Lemma expected_fun : forall c a e e', expected c a e -> expected c a e' -> e = e'.
Proof.
  assert (F : forall m, (forall x n, inner_at m x n -> feat_ok m n) -> (exists x n, inner_at m x n /\ ~ feat_ok m n) -> False).
  { intros m H (x & n & I & N). apply N. eapply H; eauto. }
  assert (N0 : forall m, Nodes m = [] -> forall x n, ~ inner_at m x n).
  { intros m E x n (_ & X & _). rewrite E in X. destruct (Z.to_nat x); discriminate. }
  assert (L0 : forall m, Nodes m = [] -> forall x, ~ leaf_at m x).
  { intros m E x (n & _ & X & _). rewrite E in X. destruct (Z.to_nat x); discriminate. }
  assert (V0 : forall m, Nodes m = [] -> Forall (node_valid (Dim m) (length (Nodes m))) (Nodes m)) by (intros m ->; constructor).
  intros c a e e' H H'. destruct a; destruct e, e'; cbn [expected] in *; try reflexivity; try contradiction; try congruence; try discriminate; try lia.
  all: exfalso; repeat match goal with
    | H : _ /\ _ |- _ => destruct H
    | H : _ \/ _ |- _ => destruct H
    | H : exists _, _ |- _ => destruct H
    end; try congruence; try solve [eapply N0; eauto]; try solve [eapply L0; eauto]; try solve [eauto].
  all: try match goal with
    | R : reachable _ ?x, L : leaf_at _ ?x, G : forall y, reachable _ y -> _ |- _ => exact (G x R L)
    | R : rests ?m ?e ?y, G : forall y, arrives _ _ _ y -> _, A : arrives _ _ _ ?y |- _ => destruct (G y A) as (z & Gz); exact (rests_goes m e y z R Gz)
    | R : stuck ?m ?e ?y, G : forall y, arrives _ _ _ y -> _, A : arrives _ _ _ ?y |- _ => destruct (G y A) as (z & Gz); exact (stuck_goes m e y z R Gz)
    | R : stuck ?m ?e ?y, T : rests ?m ?e ?z, A : arrives _ _ ?x ?y, B : arrives _ _ ?x ?z |- _ =>
        assert (y = z) as -> by (apply (arrives_fun m e x); auto; intros u Gu; [exact (rests_goes m e z u T Gu)|exact (stuck_goes m e y u R Gu)]);
        exact (stuck_rests m e z R T)
    end.
Qed.

(* C36, C37: a component other than AllComp of a constant returns a CNF, fails, panics or loops exactly in the
   cases [how] lists, in every context and on every list of nodes. *)
Theorem C37_endings : forall c a, good_ctx c -> not_AllC a -> forall e, ends (fst (enc (QAtom a) c)) e <-> how c a e.
Proof.
  intros c a [_ J] NA e. destruct (how_ends c a J NA) as (e0 & H0 & E0). apply enc_atom_ends in E0. split.
  - intros E. now rewrite (ends_det _ _ _ _ E E0).
  - intros H. replace e with e0; [exact E0|]. destruct H as [[W ->]|[W H]], H0 as [[W0 ->]|[W0 H0]]; try contradiction; [reflexivity|].
    symmetry. eapply expected_fun; eauto.
Qed.
Print Assumptions C37_endings.

(* AllComp of a constant stops at the first leaf of the other class, so it need not come to every bad node. *)
Theorem C37_allcomp_endings : forall c k b, good_ctx c ->
  let r := fst (enc (QAtom (AllC k b)) c) in let m := cModel c in
  ~ ends r Loops /\
  (ends r Fails -> length (value c k) <> Dim m \/ Nodes m = [] \/ bad_feature m (value c k)) /\
  (ends r Panics -> bad_child m (value c k)) /\
  (length (value c k) <> Dim m \/ Nodes m = [] -> ends r Fails) /\
  (length (value c k) = Dim m -> Nodes m <> [] -> ~ bad_feature m (value c k) -> ~ bad_child m (value c k) -> ends r Returns).
Proof.
  intros c k b [_ J] r m.
  assert (R : forall e, ends (guard (ValidateConstsDim (Dim m) [fst (ScopeConst (cScoper c) k)]) (rbool (allcomp_const (Dim m) (Nodes m) (fst (ScopeConst (cScoper c) k)) b))) e -> ends r e)
    by (intros e H; apply enc_atom_ends; exact H).
  destruct (Nat.eq_dec (length (value c k)) (Dim m)) as [L|L].
  2:{ assert (E : ends r Fails).
      { apply R. unfold ValidateConstsDim. cbn [validate_from]. fold (value c k). apply Nat.eqb_neq in L. rewrite L. cbn. eauto. }
      split; [intros X; discriminate (ends_det _ _ _ _ E X)|]. split; [auto|]. split; [intros X; discriminate (ends_det _ _ _ _ E X)|]. split; [auto|]. intros; contradiction. }
  rewrite dims_ok_one in R by exact L. cbn [guard] in R.
  destruct (Nodes m) as [|n l] eqn:EN.
  { assert (E : ends r Fails) by (apply R; unfold allcomp_const; cbn; eauto).
    split; [intros X; discriminate (ends_det _ _ _ _ E X)|]. split; [auto|]. split; [intros X; discriminate (ends_det _ _ _ _ E X)|]. split; [auto|]. intros; contradiction. }
  rewrite <- EN in *. assert (NE : Nodes m <> []) by (rewrite EN; discriminate).
  pose proof (allcomp_ends m (fst (ScopeConst (cScoper c) k)) b L NE) as H. fold (value c k) in H.
  destruct (allcomp_const _ _ _ _) as [o|e| |]; cbn [rbool rbind] in R; [| | |contradiction].
  - assert (E : ends r Returns) by (apply R; cbn; eauto).
    split; [intros X; discriminate (ends_det _ _ _ _ E X)|]. split; [intros X; discriminate (ends_det _ _ _ _ E X)|]. split; [intros X; discriminate (ends_det _ _ _ _ E X)|].
    split; [intros [X|X]; contradiction|auto].
  - assert (E : ends r Fails) by (apply R; cbn; eauto).
    split; [intros X; discriminate (ends_det _ _ _ _ E X)|]. split; [auto|]. split; [intros X; discriminate (ends_det _ _ _ _ E X)|].
    split; [auto|]. intros; contradiction.
  - assert (E : ends r Panics) by (apply R; reflexivity).
    split; [intros X; discriminate (ends_det _ _ _ _ E X)|]. split; [intros X; discriminate (ends_det _ _ _ _ E X)|]. split; [auto|].
    split; [intros [X|X]; contradiction|]. intros; contradiction.
Qed.
Print Assumptions C37_allcomp_endings.

(* ---- cases ---- *)

(* Two nodes pointing at each other, for either answer. *)
Definition m_ring := mkModel 1 [mkNode false 0 1 1; mkNode false 0 0 0].
(* An inner node testing a feature the model does not have. *)
Definition m_feat := mkModel 1 [mkNode false 5 1 1; mkNode true 0 (-1) (-1)].
(* A second child outside the list. *)
Definition m_child := mkModel 1 [mkNode false 0 1 7; mkNode true 0 (-1) (-1)].
Definition k_one := mkQConst "" [ONE].
Example C37_endings_case :
  let on m := fun a e => how (BasicQContext m) a e in
  on m_ring (NodeC k_one) Loops /\ on m_ring (DfsC k_one) Fails /\ on m_ring (AllV "x" true (Some (fun v => v))) Returns /\
  on m_feat (NodeV "x" (Some (fun v => v))) Panics /\ on m_feat (NodeC k_one) Fails /\ on m_feat (DfsV "x") Fails /\
  on m_child (NodeC (mkQConst "" [ZERO])) Returns /\ on (mkModel 1 []) (DfsV "x") Panics /\
  on m_ring (SubsCC k_one (mkQConst "" [])) Fails /\ on m_ring (HeprVV "x" "y" [] (Some (fun _ _ _ => ""))) Panics.
Proof.
  cbv zeta. assert (J : forall m a, not_AllC a -> forall e, ends (fst (enc (QAtom a) (BasicQContext m))) e -> how (BasicQContext m) a e)
    by (intros m a N e; apply C37_endings; [apply basic_good|exact N]).
  repeat (split; [apply J; [exact Logic.I|]; first [vm_compute; reflexivity|vm_compute; eexists; reflexivity]|]).
  apply J; [exact Logic.I|]; vm_compute; reflexivity.
Qed.
Example C37_allcomp_case :
  ends (fst (enc (QAtom (AllC k_one true)) (BasicQContext m_child))) Panics /\
  ends (fst (enc (QAtom (AllC k_one true)) (BasicQContext m_feat))) Fails /\
  ends (fst (enc (QAtom (AllC k_one true)) (BasicQContext m_ring))) Returns /\
  ~ bad_feature m_ring [ONE] /\ ~ bad_child m_ring [ONE].
Proof.
  assert (I : forall x n, inner_at m_ring x n -> n = mkNode false 0 1 1 \/ n = mkNode false 0 0 0).
  { intros x n (_ & E & _). cbn in E. destruct (Z.to_nat x) as [|[|[|k]]]; cbn in E; try discriminate; injection E as <-; auto. }
  repeat (split; [first [vm_compute; reflexivity|vm_compute; eexists; reflexivity]|]). split.
  - intros (x & n & _ & H & F). apply F. destruct (I x n H) as [-> | ->]; split; cbn; lia.
  - intros (x & n & _ & H & _ & [[F _]|[F _]]); apply F; destruct (I x n H) as [-> | ->]; split; cbn; lia.
Qed.
