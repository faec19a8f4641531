(* Specification, independent of the encoders: partial instances, decision
   trees and the meaning of every predicate of the library. *)
From Verif Require Import GoBase Query.
Local Open Scope Z_scope.
Local Open Scope list_scope.

(* ---- partial instances ---- *)

Definition inst := list FeatV.

(* Feature i of e. *)
Definition feat (e : inst) (i : Z) : FeatV := nth (Z.to_nat i) e BOT.
Definition valid_feat (x : FeatV) : Prop := x = BOT \/ x = ZERO \/ x = ONE.
(* A partial instance of dimension d. *)
Definition valid_inst (d : nat) (e : inst) : Prop :=
  length e = d /\ Forall valid_feat e.
Definition in_range (d : nat) (i : Z) : Prop := 0 <= i < Z.of_nat d.

(* Feature indices 0, 1, .., d-1. *)
Definition indices_below (d : nat) : list Z := map Z.of_nat (seq 0 d).

(* e1 is subsumed by e2. *)
Definition subsumed (d : nat) (e1 e2 : inst) : Prop :=
  forall i, in_range d i -> feat e1 i = BOT \/ feat e1 i = feat e2 i.
(* Number of undefined features. *)
Definition bots (d : nat) (e : inst) : nat :=
  length (filter (fun i => feat e i =? BOT) (indices_below d)).
(* The level of e1 is at most the level of e2. *)
Definition level_le (d : nat) (e1 e2 : inst) : Prop := (bots d e2 <= bots d e1)%nat.
Definition full (d : nat) (e : inst) : Prop := forall i, in_range d i -> feat e i <> BOT.
(* e1 and e2 agree where both are defined. *)
Definition consistent (d : nat) (e1 e2 : inst) : Prop :=
  forall i, in_range d i -> feat e1 i = BOT \/ feat e2 i = BOT \/ feat e1 i = feat e2 i.
Definition hamming (d : nat) (e1 e2 : inst) : nat :=
  length (filter (fun i => negb (feat e1 i =? feat e2 i)) (indices_below d)).
Definition leh (d : nat) (e1 e2 e3 : inst) : Prop :=
  full d e1 /\ full d e2 /\ full d e3 /\ (hamming d e1 e2 <= hamming d e1 e3)%nat.
(* At the first feature of the preference where exactly one of e1, e2 is
   undefined, e1 is the defined one. *)
Fixpoint preferred (pref : list Z) (e1 e2 : inst) : Prop :=
  match pref with
  | [] => True
  | i :: r =>
      (feat e1 i <> BOT /\ feat e2 i = BOT) \/
      ((feat e1 i = BOT <-> feat e2 i = BOT) /\ preferred r e1 e2)
  end.

(* ---- decision trees ---- *)

(* Trees whose nodes carry their position in the model's list of nodes. *)
Inductive tree :=
| Leaf (i : Z) (b : bool)
| Split (i : Z) (f : Z) (z o : tree).

Definition pos (t : tree) : Z := match t with Leaf i _ => i | Split i _ _ _ => i end.
Fixpoint positions (t : tree) : list Z :=
  match t with
  | Leaf i _ => [i]
  | Split i _ z o => i :: positions z ++ positions o
  end.

(* Class of a full instance. *)
Fixpoint classify (t : tree) (x : inst) : bool :=
  match t with
  | Leaf _ b => b
  | Split _ f z o => if feat x f =? ONE then classify o x else classify z x
  end.

(* The tree's nodes are in the list, at their positions. *)
Fixpoint laid_out (nodes : list node) (t : tree) : Prop :=
  match t with
  | Leaf i b =>
      0 <= i /\ exists n, nth_error nodes (Z.to_nat i) = Some n /\
                          IsLeaf n = true /\ nValue n = b
  | Split i f z o =>
      0 <= i /\ (exists n, nth_error nodes (Z.to_nat i) = Some n /\
                           IsLeaf n = false /\ nFeat n = f /\
                           zChild n = pos z /\ oChild n = pos o) /\
      laid_out nodes z /\ laid_out nodes o
  end.

(* Features are in range and none is tested twice on a branch. *)
Fixpoint read_once (d : nat) (used : list Z) (t : tree) : Prop :=
  match t with
  | Leaf _ _ => True
  | Split _ f z o =>
      in_range d f /\ ~ In f used /\ read_once d (f :: used) z /\ read_once d (f :: used) o
  end.

(* The model is the decision tree t: dimension positive, root at position 0,
   every listed node in the tree exactly once. *)
Definition is_dtree (m : model) (t : tree) : Prop :=
  (0 < Dim m)%nat /\ pos t = 0 /\ laid_out (Nodes m) t /\
  NoDup (positions t) /\ length (positions t) = length (Nodes m) /\
  read_once (Dim m) [] t.

(* The partial instances of the nodes, in preorder. *)
Definition set_feat (e : inst) (f : Z) (v : FeatV) : inst := list_set e (Z.to_nat f) v.
Fixpoint node_insts (e : inst) (t : tree) : list inst :=
  match t with
  | Leaf _ _ => [e]
  | Split _ f z o =>
      e :: node_insts (set_feat e f ZERO) z ++ node_insts (set_feat e f ONE) o
  end.
Definition all_bot (d : nat) : inst := repeat BOT d.
Definition node_instances (d : nat) (t : tree) : list inst := node_insts (all_bot d) t.

Definition is_node (d : nat) (t : tree) (e : inst) : Prop := In e (node_instances d t).

Definition completion (d : nat) (e x : inst) : Prop :=
  valid_inst d x /\ full d x /\ subsumed d e x.
(* Every completion of e has class b. *)
Definition all_comp (d : nat) (t : tree) (b : bool) (e : inst) : Prop :=
  forall x, completion d e x -> classify t x = b.
(* The set of defined features of e is a determinant feature set. *)
Definition determinant (d : nat) (t : tree) (e : inst) : Prop :=
  forall e', valid_inst d e' ->
    (forall i, in_range d i -> (feat e i = BOT <-> feat e' i = BOT)) ->
    exists b, all_comp d t b e'.
