(* Property C55: models that are not trees testing each feature once on a branch. *)
From Verif Require Import GoBase GoLemmas Cnf Query Walk Atoms Logop Spec Meaning CnfSem QueryLemmas Sym AtomBase AtomMain Form Master Block Sat TreeLemmas WalkLemmas AtomCnf PropAtoms PropContext Graph.
From Verif Require Outside.
Local Open Scope string_scope.
Local Open Scope Z_scope.
Local Open Scope list_scope.

(* The two readings of Graph.v and those of Spec.v: on every tree, when no
   branch leads to the other class all completions have the class; on a tree
   that tests no feature twice on a branch the readings are the same. *)
Theorem C55_readings : forall d t b e, feats_in d t -> valid_inst d e ->
  (no_branch_to t b e -> all_comp d t b e) /\
  (read_once d [] t -> (no_branch_to t b e <-> all_comp d t b e) /\ (at_node d t e <-> is_node d t e)).
Proof.
  intros d t b e F V. rewrite (no_branch_allc d b t e V). split; [now apply allc_all_comp|]. intros R. split.
  - symmetry. now apply (all_comp_allc d b t []).
  - now apply at_node_is_node.
Qed.
Print Assumptions C55_readings.

Lemma encoded_as : forall c t a P (new : Prop), good_ctx c -> encodes_as t c a P -> (new -> own_names t c a) ->
  encoded c a (vars_of (resolve (cScoper c) a)) new P.
Proof.
  intros c t a P new G H HN. split.
  - destruct (atom_cnf_as c t a P G H) as (f & c' & E & G' & _ & _ & X & _ & _ & A & B). exists f, c'. repeat (split; [assumption|]). auto.
  - destruct (not_atom_cnf_as c t a P G H) as (f & c' & E & G' & _ & _ & X & A & B). exists f, c'. repeat (split; [assumption|]). auto.
Qed.

(* The versions for constants, on every model that unfolds into a tree: nodes
   may be shared or unreachable, features tested again. *)
Theorem C55_const_exact : forall c t k b, good_ctx c -> unfolds (cModel c) t -> valid_const c k ->
  encoded c (NodeC k) [] True (fun _ => at_node (Dim (cModel c)) t (value c k)) /\
  encoded c (AllC k b) [] True (fun _ => no_branch_to t b (value c k)).
Proof.
  intros c t k b G U V. split.
  - apply (encoded_as c t (NodeC k) _ True G); [apply node_c_as; auto; apply G|intros _; own].
  - apply (encoded_as c t (AllC k b) _ True G); [apply all_c_as; auto; apply G|intros _; own].
Qed.
Print Assumptions C55_const_exact.

(* The versions for variables, on every tree: features may be tested again. *)
Theorem C55_var_exact : forall c t g v n b, good_ctx c -> is_tree (cModel c) t -> named_as c v n ->
  encoded c (NodeV v (Some g)) [n] (new_name c [n] (g n)) (fun E => at_node (Dim (cModel c)) t (E n)) /\
  encoded c (AllV v b (Some g)) [n] (new_name c [n] (g n)) (fun E => no_branch_to t b (E n)).
Proof.
  intros c t g v n b G U N. names_in. split.
  - apply (encoded_as c t (NodeV v (Some g)) _ _ G); [apply node_v_as; auto; apply G|intros H; own].
  - apply (encoded_as c t (AllV v b (Some g)) _ _ G); [apply all_v_as; auto; apply G|intros H; own].
Qed.
Print Assumptions C55_var_exact.

Definition leafn (b : bool) : node := mkNode b (-1) (-1) (-1).
Definition gr (v : string) : string := ("r" ++ v)%string.
Definition spell1 (e : inst) : QConst := mkQConst "" e.

Ltac graph_shape := repeat match goal with
  | |- laid_out _ (Leaf _ _) => split; [lia|]; eexists; split; [reflexivity|]; split; reflexivity
  | |- laid_out _ (Split _ _ _ _) => split; [lia|]; split; [eexists; split; [reflexivity|]; split; [reflexivity|]; split; [reflexivity|]; split; reflexivity|]; split
  | |- feats_in _ (Leaf _ _) => exact Logic.I
  | |- feats_in _ (Split _ _ _ _) => split; [split; simpl; lia|]; split
  | |- read_once _ _ (Leaf _ _) => exact Logic.I
  | |- read_once _ _ (Split _ _ _ _) => split; [split; simpl; lia|]; split; [simpl; intuition discriminate|]; split
  end.

(* ---- a feature tested again ---- *)

(* x0 at the root; where it is 1, x0 again. Every instance is positive. *)
Definition again : model := mkModel 1 [mkNode false 0 1 2; leafn true; mkNode false 0 3 4; leafn false; leafn true].
Definition again_tree : tree := Split 0 0 (Leaf 1 true) (Split 2 0 (Leaf 3 false) (Leaf 4 true)).
Lemma again_is_tree : is_tree again again_tree.
Proof.
  split; [simpl; lia|]. split; [reflexivity|]. split; [unfold again_tree; graph_shape|]. split; [|split; [reflexivity|unfold again_tree; graph_shape]].
  simpl. repeat constructor; simpl; intuition discriminate.
Qed.

(* AllPos fails of an instance all completions of which are positive. *)
Theorem C55_tested_again_refuted : exists m t e, is_tree m t /\ valid_inst (Dim m) e /\ all_comp (Dim m) t true e /\
  fst (enc (QAtom (AllC (spell1 e) true)) (BasicQContext m)) = Ok FalseCNF /\
  forall f c' r, enc (QAtom (AllV "x" true (Some gr))) (BasicQContext m) = (Ok f, c') -> spells c' r "x" e -> Con r f = true -> Sem r f = false.
Proof.
  exists again, again_tree, [BOT].
  assert (V : valid_inst (Dim again) [BOT]) by (split; [reflexivity|]; apply Forall_cons; [unfold valid_feat; auto|apply Forall_nil]).
  assert (NB : ~ no_branch_to again_tree true [BOT]).
  { rewrite (no_branch_allc (Dim again)) by exact V. vm_compute. discriminate. }
  split; [apply again_is_tree|]. split; [exact V|]. split; [|split].
  - intros x (Vx & Fx & _). cbn [classify again_tree]. destruct (feat x 0 =? ONE) eqn:E; reflexivity.
  - vm_compute. reflexivity.
  - intros f c' r E S C. destruct (C55_var_exact (BasicQContext again) again_tree gr "x" "x" true (basic_good _) again_is_tree (basic_named _ _)) as [_ [(f2 & c2 & E2 & _ & _ & A & _) _]].
    rewrite E in E2. injection E2 as <- <-. apply not_true_iff_false. intros X. apply NB.
    apply (A r (fun _ => [BOT])); auto. intros w [<-|[]]. exact S.
Qed.
Print Assumptions C55_tested_again_refuted.

(* x0; where it is 1, x1; where that is 0, x0 again. Positive: x0 and x1 both 1. *)
Definition lost : model := mkModel 2
  [mkNode false 0 1 2; leafn false; mkNode false 1 3 6; mkNode false 0 4 5; leafn false; leafn false; leafn true].
Definition lost_tree : tree :=
  Split 0 0 (Leaf 1 false) (Split 2 1 (Split 3 0 (Leaf 4 false) (Leaf 5 false)) (Leaf 6 true)).
Lemma lost_is_tree : is_tree lost lost_tree.
Proof.
  split; [simpl; lia|]. split; [reflexivity|]. split; [unfold lost_tree; graph_shape|]. split; [|split; [reflexivity|unfold lost_tree; graph_shape]].
  simpl. repeat constructor; simpl; intuition discriminate.
Qed.

(* ForAllGuarded leaves out a node and takes up an instance of no node: when it
   goes back over the inner test of x0 it forgets the outer one. *)
Theorem C55_forgotten_test_refuted : exists m t it l e e', is_tree m t /\
  newNodeAsValuesIter (Dim m) (Nodes m) = Ok it /\ Outside.visits it l /\
  at_node (Dim m) t e /\ ~ In e l /\ In e' l /\ ~ at_node (Dim m) t e'.
Proof.
  exists lost, lost_tree. eexists. eexists. exists [ONE; ONE], [BOT; ONE]. split; [apply lost_is_tree|]. split; [reflexivity|].
  assert (V : forall a b, valid_feat a -> valid_feat b -> valid_inst (Dim lost) [a; b]).
  { intros a b Ha Hb. split; [reflexivity|]. repeat (apply Forall_cons; [assumption|]). apply Forall_nil. }
  split; [|split; [|split; [|split]]].
  - repeat (eapply Outside.V_more; [vm_compute; reflexivity|]). eapply Outside.V_end. vm_compute. reflexivity.
  - exists [(0, ONE); (1, ONE)], (Leaf 6 true). split; [apply br_one, br_one, br_here|].
    intros i v [I1 I2] N. simpl in I2. assert (C : i = 0 \/ i = 1) by lia. destruct C as [->| ->]; cbn.
    + split; [intros <-; auto|intros [[= <-]|[[= ]|[]]]; reflexivity].
    + split; [intros <-; auto|intros [[= ]|[[= <-]|[]]]; reflexivity].
  - cbn. intros H. repeat destruct H as [H|H]; try discriminate; contradiction.
  - cbn. auto 10.
  - rewrite (at_node_path (Dim lost)); [|apply lost_is_tree|apply V; unfold valid_feat; auto].
    intros H. destruct (H 1) as [X|X]; [split; simpl; lia|discriminate|]. vm_compute in X. contradiction.
Qed.
Print Assumptions C55_forgotten_test_refuted.

(* The same walk in extensions/dfs: a full instance has its feature set
   rejected, though it leaves one completion. *)
Theorem C55_forgotten_test_dfs_refuted : exists m t e, is_tree m t /\ valid_inst (Dim m) e /\ full (Dim m) e /\
  determinant (Dim m) t e /\ fst (enc (QAtom (DfsC (spell1 e))) (BasicQContext m)) = Ok FalseCNF.
Proof.
  exists lost, lost_tree, [ONE; ONE]. split; [apply lost_is_tree|]. split; [|split; [|split]].
  - split; [reflexivity|]. repeat (apply Forall_cons; [unfold valid_feat; auto|]). apply Forall_nil.
  - intros i [I1 I2]. simpl in I2. assert (C : i = 0 \/ i = 1) by lia. destruct C as [->| ->]; discriminate.
  - intros e' V H. exists (classify lost_tree e'). intros x (Vx & Fx & Sx).
    assert (E : x = e'); [|now subst].
    assert (Fe : full (Dim lost) e').
    { intros i Hi X. apply (H i Hi) in X. destruct Hi as [I1 I2]. simpl in I2. assert (C : i = 0 \/ i = 1) by lia. destruct C as [->| ->]; discriminate. }
    apply (inst_ext (Dim lost)); [apply Vx|apply V|]. intros i Hi. destruct (Sx i Hi) as [X|X]; [elim (Fe i Hi X)|auto].
  - vm_compute. reflexivity.
Qed.
Print Assumptions C55_forgotten_test_dfs_refuted.

(* ---- a node with two parents ---- *)

(* x0 xor x1, with two leafs *)
Definition xor : model := mkModel 2
  [mkNode false 0 1 2; mkNode false 1 3 4; mkNode false 1 4 3; leafn false; leafn true].
Definition xor_tree : tree := Split 0 0 (Split 1 1 (Leaf 3 false) (Leaf 4 true)) (Split 2 1 (Leaf 4 true) (Leaf 3 false)).
Lemma xor_unfolds : unfolds xor xor_tree.
Proof. split; [simpl; lia|]. split; [reflexivity|]. split; unfold xor_tree; graph_shape. Qed.
Lemma xor_once : read_once (Dim xor) [] xor_tree.
Proof. unfold xor_tree. graph_shape. Qed.

Ltac dpll r := repeat (first [discriminate | match goal with |- context [r ?n] => destruct (r n); cbn [negb andb orb] end]); try reflexivity.

(* Exists x subsuming 00: AllNeg(x), and the same with AllNeg negated: neither
   CNF can be met, though 00 is negative. The clauses for the parents of the
   shared leafs exclude each other. *)
Theorem C55_shared_node_refuted : exists m t e, unfolds m t /\ read_once (Dim m) [] t /\ valid_inst (Dim m) e /\
  full (Dim m) e /\ all_comp (Dim m) t false e /\
  forall neg f c' r, enc (QWith "x" (QAnd (QAtom (SubsCV (spell1 e) "x"))
      (let q := QAtom (AllV "x" false (Some gr)) in if (neg : bool) then QNot q else q))) (BasicQContext m) = (Ok f, c') ->
    Models r f = false.
Proof.
  exists xor, xor_tree, [ZERO; ZERO]. split; [apply xor_unfolds|]. split; [apply xor_once|].
  assert (V : valid_inst (Dim xor) [ZERO; ZERO]).
  { split; [reflexivity|]. repeat (apply Forall_cons; [unfold valid_feat; auto|]). apply Forall_nil. }
  split; [exact V|]. split; [|split].
  - intros i [I1 I2]. simpl in I2. assert (C : i = 0 \/ i = 1) by lia. destruct C as [->| ->]; discriminate.
  - apply (all_comp_allc (Dim xor) false xor_tree []); [apply xor_once|exact V|reflexivity].
  - intros neg f c' r E.
    assert (C : clauses_true r (cClauses f) && clauses_true r (sClauses f) = false).
    { destruct neg; vm_compute in E; apply (f_equal fst) in E; cbn [fst] in E; injection E as <-;
        cbn [cClauses sClauses clauses_true clause_true forallb existsb]; unfold lit_true; cbn [Z.ltb Z.compare Z.opp];
        dpll r. }
    unfold Models, Sem, Con. rewrite andb_comm. exact C.
Qed.
Print Assumptions C55_shared_node_refuted.

(* ForAllGuarded comes to a shared node once, so it leaves out the instances
   the node has on its other branches. *)
Theorem C55_shared_forall_refuted : exists m t it l e, unfolds m t /\ read_once (Dim m) [] t /\
  newNodeAsValuesIter (Dim m) (Nodes m) = Ok it /\ Outside.visits it l /\ is_node (Dim m) t e /\ ~ In e l.
Proof.
  exists xor, xor_tree. eexists. eexists. exists [ONE; ONE]. split; [apply xor_unfolds|]. split; [apply xor_once|]. split; [reflexivity|].
  split; [|split].
  - repeat (eapply Outside.V_more; [vm_compute; reflexivity|]). eapply Outside.V_end. vm_compute. reflexivity.
  - vm_compute. auto 10.
  - cbn. intros H. repeat destruct H as [H|H]; try discriminate; contradiction.
Qed.
Print Assumptions C55_shared_forall_refuted.

(* ---- a node no branch reaches ---- *)

(* one positive leaf; beside it a negative leaf, and a split *)
Definition stray : model := mkModel 1 [leafn true; leafn false; mkNode false 0 3 4; leafn true; leafn true].
Definition stray_tree : tree := Leaf 0 true.
Lemma stray_unfolds : unfolds stray stray_tree.
Proof. split; [simpl; lia|]. split; [reflexivity|]. split; unfold stray_tree; graph_shape. Qed.

Ltac spelled V := split; [exact V|]; intros i x n [I1 I2] Hx Hn; simpl in I2; assert (i = 0) by lia; subst i;
  destruct Hx as [ -> |[ -> | -> ]]; vm_compute in Hn; injection Hn as <-; reflexivity.

(* Not(AllPos(x)) and Node(x) hold of instances they should not hold of: what
   the reach variables of the other nodes say is left open. *)
Theorem C55_stray_node_refuted : exists m t e, unfolds m t /\ NoDup (positions t) /\ read_once (Dim m) [] t /\ valid_inst (Dim m) e /\
  all_comp (Dim m) t true e /\ ~ is_node (Dim m) t e /\
  (exists f c' r, enc (QNot (QAtom (AllV "x" true (Some gr)))) (BasicQContext m) = (Ok f, c') /\ spells c' r "x" e /\ Models r f = true) /\
  (exists f c' r, enc (QAtom (NodeV "x" (Some gr))) (BasicQContext m) = (Ok f, c') /\ spells c' r "x" e /\ Models r f = true).
Proof.
  exists stray, stray_tree, [ONE]. split; [apply stray_unfolds|]. split; [repeat constructor; intros []|].
  split; [exact Logic.I|].
  assert (V : valid_inst (Dim stray) [ONE]).
  { split; [reflexivity|]. repeat (apply Forall_cons; [unfold valid_feat; auto|]). apply Forall_nil. }
  split; [exact V|]. split; [intros x _; reflexivity|]. split; [vm_compute; intros [H|[]]; discriminate|]. split.
  - eexists. eexists. exists (fun n => inb n [1; 2; 6]). split; [vm_compute; reflexivity|]. split; [|vm_compute; reflexivity]. spelled V.
  - eexists. eexists. exists (fun n => inb n [2; 3; 6; 7]). split; [vm_compute; reflexivity|]. split; [|vm_compute; reflexivity]. spelled V.
Qed.
Print Assumptions C55_stray_node_refuted.

(* The theorems on the models above: in the shared xor a constant is placed
   right, and where x0 is tested again the variable versions read the tree. *)
Example C55_case : unfolds xor xor_tree /\ is_tree lost lost_tree /\
  map (fun e => fst (enc (QAtom (NodeC (spell1 e))) (BasicQContext xor))) [[ONE; BOT]; [BOT; ONE]; [ONE; ZERO]] = [Ok TrueCNF; Ok FalseCNF; Ok TrueCNF] /\
  map (fun e => fst (enc (QAtom (AllC (spell1 e) true)) (BasicQContext xor))) [[ONE; BOT]; [ZERO; ONE]; [ONE; ONE]] = [Ok FalseCNF; Ok TrueCNF; Ok FalseCNF] /\
  at_node (Dim lost) lost_tree [ONE; ZERO] /\ ~ at_node (Dim lost) lost_tree [BOT; ZERO] /\
  no_branch_to lost_tree false [BOT; ZERO] /\ ~ no_branch_to lost_tree false [ONE; BOT].
Proof.
  assert (V : forall a b, valid_feat a -> valid_feat b -> valid_inst (Dim lost) [a; b]).
  { intros a b Ha Hb. split; [reflexivity|]. repeat (apply Forall_cons; [assumption|]). apply Forall_nil. }
  assert (V0 : valid_feat BOT /\ valid_feat ZERO /\ valid_feat ONE) by (unfold valid_feat; auto). destruct V0 as (V0 & V1 & V2).
  split; [apply xor_unfolds|]. split; [apply lost_is_tree|]. split; [vm_compute; reflexivity|]. split; [vm_compute; reflexivity|].
  split; [|split; [|split]].
  - rewrite (at_node_path (Dim lost)); [|apply lost_is_tree|auto]. intros i [I1 I2]. simpl in I2.
    assert (C : i = 0 \/ i = 1) by lia. destruct C as [->| ->]; right; vm_compute; auto.
  - rewrite (at_node_path (Dim lost)); [|apply lost_is_tree|auto].
    intros H. destruct (H 1) as [X|X]; [split; simpl; lia|discriminate|]. vm_compute in X. contradiction.
  - rewrite (no_branch_allc (Dim lost)) by auto. reflexivity.
  - rewrite (no_branch_allc (Dim lost)) by auto. vm_compute. discriminate.
Qed.
