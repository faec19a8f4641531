(* Properties that do not hold of the code: C34, C38, C39, C46.  Each theorem
   gives a witness; the hypotheses of C22-C29 exclude them. *)
From Verif Require Import GoBase GoLemmas Cnf Query Walk Atoms Logop Spec Meaning Truth CnfSem QueryLemmas Sym AtomBase AtomSimple TreeLemmas WalkLemmas AtomMain Form Master Block Ground Sat AtomCnf Evolve Outcome Errors Names FirstOrder Answer Solver Dimacs Compute Run PropContext PropTruth PropCompute.
Local Open Scope string_scope.
Local Open Scope Z_scope.
Local Open Scope list_scope.

(* The encoding of q in a new context is f, which has no model. *)
Definition refused (m : model) (q : query) : Prop :=
  exists f c', enc q (BasicQContext m) = (Ok f, c') /\ forall r, Models r f = false.
Definition accepted (m : model) (q : query) : Prop :=
  exists f c', enc q (BasicQContext m) = (Ok f, c') /\ exists r, Models r f = true.

Definition verdict_of (m : model) (q : query) : option bool :=
  match fst (enc q (BasicQContext m)) with
  | Ok f => if legalb (sClauses f ++ cClauses f) then Some (sat_cnf f) else None
  | _ => None
  end.
Lemma refused_by : forall m q, verdict_of m q = Some false -> refused m q.
Proof.
  intros m q H. unfold verdict_of in H. destruct (enc q (BasicQContext m)) as [[f|e| |] c'] eqn:E; try discriminate.
  cbn [fst] in H. exists f, c'. split; [exact E|]. intros r. destruct (legalb (sClauses f ++ cClauses f)) eqn:L; [|discriminate]. injection H as H.
  apply not_true_iff_false. intros X. unfold Models in X. apply andb_true_iff in X as [X Y].
  assert (sat_cnf f = true) by (apply (sat_cnf_spec f L); exists r; auto). congruence.
Qed.
Lemma accepted_by : forall m q, verdict_of m q = Some true -> accepted m q.
Proof.
  intros m q H. unfold verdict_of in H. destruct (enc q (BasicQContext m)) as [[f|e| |] c'] eqn:E; try discriminate.
  cbn [fst] in H. exists f, c'. split; [exact E|]. destruct (legalb (sClauses f ++ cClauses f)) eqn:L; [|discriminate]. injection H as H.
  apply (sat_cnf_spec f L) in H as (r & A & B). exists r. unfold Models. now rewrite A, B.
Qed.

(* ---- C34 ---- *)

(* No instance extends both constants. *)
Definition both : query := QWith "x" (QAnd (QAtom (SubsCV (mkQConst "" [ONE; BOT]) "x")) (QAtom (SubsCV (mkQConst "" [ZERO; BOT]) "x"))).
Lemma both_fo : fo_query stump stump_tree both.
Proof.
  constructor.
  - cbn. split; intros a [<-|[]]; simpl; auto.
  - repeat constructor; simpl; tauto.
  - cbn. tauto.
  - cbn [both components_ok]. split; ok_atom.
  - split; cbn; repeat constructor.
Qed.
Lemma both_tidy : tidy comp_naming 2 both.
Proof.
  apply rs_tidy; auto.
  - cbn. repeat (apply Forall_cons; [cbn; reflexivity || exact Logic.I|]). apply Forall_nil.
  - cbn. tauto.
  - repeat (apply Forall_cons; [split; [reflexivity|simpl; intuition discriminate]|]). apply Forall_nil.
  - repeat constructor.
Qed.

(* Asked twice in one context, a query that is well-formed in every sense used
   here gets two answers from a correct solver, the second one wrong. *)
Theorem C34_refuted : exists E m t q N s s1 c1 s2 c2,
  files_ok E /\ correct_solver E /\ is_dtree m t /\ fo_query m t q /\ tidy N (Dim m) q /\ ~ true_query (Dim m) t q /\
  CombSat E (CAtom q false) s (BasicQContext m) = (Ok false, s1, c1) /\
  CombSat E (CAtom q false) s1 c1 = (Ok true, s2, c2).
Proof.
  exists ideal, stump, stump_tree, both, comp_naming, fresh_solver.
  pose (c1 := snd (CombSat ideal (CAtom both false) fresh_solver (BasicQContext stump))).
  pose (s1 := snd (fst (CombSat ideal (CAtom both false) fresh_solver (BasicQContext stump)))).
  exists s1, c1.
  exists (snd (fst (CombSat ideal (CAtom both false) s1 c1))), (snd (CombSat ideal (CAtom both false) s1 c1)).
  split; [exact ideal_files|]. split; [exact ideal_correct|]. split; [exact stump_is_dtree|]. split; [exact both_fo|]. split; [exact both_tidy|].
  split; [|split; vm_compute; reflexivity].
  intros (E & _ & H1 & H2). cbn in H1, H2. assert (I0 : in_range 2 0) by (unfold in_range; lia).
  specialize (H1 0 I0). specialize (H2 0 I0). change (feat [ONE; BOT] 0) with ONE in H1. change (feat [ZERO; BOT] 0) with ZERO in H2.
  destruct H1 as [H1|H1]; [discriminate|]. destruct H2 as [H2|H2]; [discriminate|]. rewrite <- H1 in H2. discriminate.
Qed.
Print Assumptions C34_refuted.

(* ---- C38 ---- *)

Ltac small_inst := split; [reflexivity|repeat (apply Forall_cons; [unfold valid_feat; auto|]); apply Forall_nil].

(* A node below which both classes are found. *)
Definition undecided (gn ga : gen1) : query :=
  QWith "x" (QAnd (QAtom (NodeV "x" gn)) (QAnd (QNot (QAtom (AllV "x" true ga))) (QNot (QAtom (AllV "x" false ga))))).

(* The root is one, but the two components disagree about what is reached. *)
Theorem C38_refuted : exists m t q g,
  is_dtree m t /\ q = undecided (Some g) (Some g) /\ (forall x y, g x = g y -> x = y) /\ fo_query m t q /\
  (forall E, trueFO (Dim m) t E [] q) /\ true_query (Dim m) t q /\ refused m q.
Proof.
  set (g := VarGenNodeReach). exists stump, stump_tree, (undecided (Some g) (Some g)), g.
  split; [exact stump_is_dtree|]. split; [reflexivity|]. split.
  { intros x y H. unfold g, VarGenNodeReach in H. simpl in H. congruence. }
  assert (F : fo_query stump stump_tree (undecided (Some g) (Some g))).
  { constructor.
    - cbn. split; [intros a [<-|[]]; simpl; auto|]. split; intros a [<-|[]]; simpl; auto.
    - repeat constructor; simpl; tauto.
    - cbn. tauto.
    - cbn [undecided components_ok]. split; [|split]; (split; [split; [apply Forall_nil|]; split; [cbn; discriminate|]; split; exact Logic.I|exact stump_is_dtree]).
    - split; cbn; repeat constructor. }
  assert (T : forall E, trueFO 2 stump_tree E [] (undecided (Some g) (Some g))).
  { intros E. exists [BOT; BOT]. split; [small_inst|]. cbn.
    assert (A : forall x y : FeatV, valid_feat x -> valid_feat y -> x <> BOT -> y <> BOT -> completion 2 [BOT; BOT] [x; y]).
    { intros x y Vx Vy Nx Ny. split; [split; [reflexivity|repeat (apply Forall_cons; [assumption|]); apply Forall_nil]|]. split.
      - intros i [H1 H2]. assert (i = 0 \/ i = 1) as [->| ->] by (simpl in H2; lia); assumption.
      - intros i [H1 H2]. assert (i = 0 \/ i = 1) as [->| ->] by (simpl in H2; lia); left; reflexivity. }
    assert (V : valid_feat ZERO /\ valid_feat ONE) by (unfold valid_feat; auto).
    split; [left; reflexivity|]. split; intros H.
    - specialize (H [ZERO; ZERO]). discriminate H. apply A; try apply V; discriminate.
    - specialize (H [ONE; ZERO]). discriminate H. apply A; try apply V; discriminate. }
  split; [exact F|]. split; [exact T|]. split.
  - refine (proj1 (fo_true 2 stump_tree _ (fo_closed _ _ _ F) (fo_once _ _ _ F) (fo_not _ _ _ F) (fun _ => [BOT; BOT]) _) (T _)). intros v. small_inst.
  - apply refused_by. vm_compute. reflexivity.
Qed.
Print Assumptions C38_refuted.
(* With two generators it is found true. *)
Example C38_apart : accepted stump (undecided (Some other_reach) (Some VarGenNodeReach)).
Proof. apply accepted_by. vm_compute. reflexivity. Qed.

(* ---- C39 ---- *)

(* Generators that separate their arguments. *)
Definition dist_gen (a b : string) : string := sjoin rs ["dist"; a; b].
Definition pref_gen (p a b : string) : string := sjoin rs ["pref"; p; a; b].
Definition plain (s : string) : Prop := no_char rs s = true.
Lemma dist_gen_injective : forall a b c d, Forall plain [a; b; c; d] -> dist_gen a b = dist_gen c d -> a = c /\ b = d.
Proof.
  intros a b c d H E. assert (X : split_on rs (dist_gen a b) = split_on rs (dist_gen c d)) by now rewrite E.
  unfold dist_gen in X. rewrite Forall_forall in H. unfold plain in H.
  rewrite !split_join in X by (try discriminate; cbn [forallb]; change (no_char rs "dist") with true; rewrite !H by (simpl; tauto); reflexivity). injection X as -> ->. auto.
Qed.
Lemma pref_gen_injective : forall p a b q c d, Forall plain [p; a; b; q; c; d] -> pref_gen p a b = pref_gen q c d -> p = q /\ a = c /\ b = d.
Proof.
  intros p a b q c d H E. assert (X : split_on rs (pref_gen p a b) = split_on rs (pref_gen q c d)) by now rewrite E.
  unfold pref_gen in X. rewrite Forall_forall in H. unfold plain in H.
  rewrite !split_join in X by (try discriminate; cbn [forallb]; change (no_char rs "pref") with true; rewrite !H by (simpl; tauto); reflexivity). injection X as -> -> ->. auto.
Qed.

Definition K (e : inst) : QConst := mkQConst "" e.
(* x is no further from 00 than 01 is, and at least as far from 01 as 10 is:
   x = 10.  Both conditions name a counter after x and 01, but the first one
   counts the distance to 00. *)
Definition near_and_far : query :=
  QWith "x" (QAnd (QAtom (LehCVC (K [ZERO; ZERO]) "x" (K [ZERO; ONE]) (Some dist_gen)))
                  (QAtom (LehCCV (K [ZERO; ONE]) (K [ONE; ZERO]) "x" (Some dist_gen)))).
Theorem C39_leh_refuted : exists m t q,
  is_dtree m t /\ q = near_and_far /\ fo_query m t q /\
  (forall E, trueFO (Dim m) t E [] q) /\ true_query (Dim m) t q /\ refused m q.
Proof.
  exists stump, stump_tree, near_and_far. split; [exact stump_is_dtree|]. split; [reflexivity|].
  assert (F : fo_query stump stump_tree near_and_far).
  { constructor.
    - cbn. split; intros a [<-|[]]; simpl; auto.
    - repeat constructor; simpl; tauto.
    - cbn. tauto.
    - cbn [near_and_far components_ok]. split; (split; [split; [repeat (apply Forall_cons; [cbn; ok_const|]); apply Forall_nil|]|cbn; lia]).
      + split; [cbn; discriminate|]. split; [exact Logic.I|]. intros _ _. vm_compute. discriminate.
      + split; [cbn; discriminate|]. split; [exact Logic.I|]. intros _ _. vm_compute. discriminate.
    - split; cbn; repeat constructor. }
  assert (T : forall E, trueFO 2 stump_tree E [] near_and_far).
  { intros E. exists [ONE; ZERO]. split; [small_inst|].
    assert (B : forall a b : FeatV, a <> BOT -> b <> BOT -> full 2 [a; b]).
    { intros a b Ha Hb i Hi. destruct Hi as [H1 H2]. assert (i = 0 \/ i = 1) as [->| ->] by (simpl in H2; lia); assumption. }
    cbn. split; (split; [apply B; discriminate|]; split; [apply B; discriminate|]; split; [apply B; discriminate|]; vm_compute; repeat constructor). }
  split; [exact F|]. split; [exact T|]. split.
  - refine (proj1 (fo_true 2 stump_tree _ (fo_closed _ _ _ F) (fo_once _ _ _ F) (fo_not _ _ _ F) (fun _ => [BOT; BOT]) _) (T _)). intros v. small_inst.
  - apply refused_by. vm_compute. reflexivity.
Qed.
Print Assumptions C39_leh_refuted.
(* Each condition alone is found true, with the same generator. *)
Example C39_leh_each :
  accepted stump (QWith "x" (QAtom (LehCVC (K [ZERO; ZERO]) "x" (K [ZERO; ONE]) (Some dist_gen)))) /\
  accepted stump (QWith "x" (QAtom (LehCCV (K [ZERO; ONE]) (K [ONE; ZERO]) "x" (Some dist_gen)))).
Proof. split; apply accepted_by; vm_compute; reflexivity. Qed.

(* A leaf over twelve features. *)
Definition dot : model := mkModel 12 [mkNode true 0 (-1) (-1)].
Definition dot_tree : tree := Leaf 0 true.
Lemma dot_is_dtree : is_dtree dot dot_tree.
Proof.
  split; [simpl; lia|]. split; [reflexivity|]. split.
  - split; [lia|]. eexists. split; [reflexivity|]. split; reflexivity.
  - split; [repeat constructor; simpl; tauto|]. split; [reflexivity|exact I].
Qed.
(* Only the last feature is defined. *)
Definition last_only : inst := [BOT; BOT; BOT; BOT; BOT; BOT; BOT; BOT; BOT; BOT; BOT; ONE].
(* Preferring 1 to 11, x is at least as preferred as last_only, but not when
   11 is preferred to 1.  The two preferences are both written 111. *)
Definition prefer : query :=
  QWith "x" (QAnd (QAtom (HeprVC "x" (K last_only) [1; 11] (Some pref_gen)))
                  (QNot (QAtom (HeprVC "x" (K last_only) [11; 1] (Some pref_gen))))).
Theorem C39_hepr_refuted : exists m t q,
  is_dtree m t /\ q = prefer /\ fo_query m t q /\
  (forall E, trueFO (Dim m) t E [] q) /\ true_query (Dim m) t q /\ refused m q.
Proof.
  exists dot, dot_tree, prefer. split; [exact dot_is_dtree|]. split; [reflexivity|].
  assert (F : fo_query dot dot_tree prefer).
  { constructor.
    - cbn. split; intros a [<-|[]]; simpl; auto.
    - repeat constructor; simpl; tauto.
    - cbn. tauto.
    - cbn [prefer components_ok]. split; (split; [split; [apply Forall_cons; [cbn; small_inst|apply Forall_nil]|]; split; [cbn; discriminate|]|exact Logic.I]).
      + split; [|exact Logic.I]. cbn. split; [|discriminate]. split; [|repeat constructor; simpl; intuition lia]. repeat (apply Forall_cons; [unfold in_range; simpl; lia|]). apply Forall_nil.
      + split; [|exact Logic.I]. cbn. split; [|discriminate]. split; [|repeat constructor; simpl; intuition lia]. repeat (apply Forall_cons; [unfold in_range; simpl; lia|]). apply Forall_nil.
    - split; cbn; repeat constructor. }
  assert (T : forall E, trueFO 12 dot_tree E [] prefer).
  { intros E. exists [BOT; ONE; BOT; BOT; BOT; BOT; BOT; BOT; BOT; BOT; BOT; BOT]. split; [small_inst|].
    cbn. split; [left; split; [discriminate|reflexivity]|].
    intros [[X _]|[X _]]; [apply X; reflexivity|]. assert (Y : BOT = BOT) by reflexivity. apply X in Y. discriminate. }
  split; [exact F|]. split; [exact T|]. split.
  - refine (proj1 (fo_true 12 dot_tree _ (fo_closed _ _ _ F) (fo_once _ _ _ F) (fo_not _ _ _ F) (fun _ => repeat BOT 12) _) (T _)). intros v. small_inst.
  - apply refused_by. vm_compute. reflexivity.
Qed.
Print Assumptions C39_hepr_refuted.

(* ---- C46 ---- *)

(* Names and components as in the queries of C24; where variables are declared
   is left open. *)
Record fo_shape (m : model) (t : tree) (q : query) : Prop := {
  fs_closed : closed [] [] q;
  fs_components : components_ok m t [] q;
  fs_names : Forall no_sep (all_vars q) /\ Forall no_sep (all_ids q)
}.

Definition is_full (x : string) : query := QAtom (FullV x).
Definition nodes_n : QConst := mkQConst "n" [].
(* Some instance is full. *)
Definition declared_under_not : query := QNot (QWith "x" (is_full "x")).
(* Some instance is full and some is not. *)
Definition declared_twice : query := QAnd (QWith "x" (is_full "x")) (QWith "x" (QNot (is_full "x"))).
(* The same, for every node, in two quantifiers that use one ID. *)
Definition quantified_twice : query := QAnd (QAll nodes_n (QWith "x" (is_full "x"))) (QAll nodes_n (QWith "x" (QNot (is_full "x")))).
(* The inner declaration is over when x is used again. *)
Definition redeclared : query :=
  QWith "x" (QAll nodes_n (QAnd (QWith "x" (QNot (is_full "x"))) (is_full "x"))).

Ltac shape := constructor; [cbn; repeat split; try (intros a [<-|[]]; simpl; auto); try tauto; try discriminate|unfold declared_under_not, declared_twice, quantified_twice, redeclared, is_full; cbn [components_ok]; intros; repeat (first [ok_atom | apply conj; intros])|split; cbn; repeat constructor].
Lemma full_or_not : full 2 [ONE; ONE] /\ ~ full 2 [BOT; BOT].
Proof.
  split.
  - intros i [H1 H2]. assert (i = 0 \/ i = 1) as [->| ->] by (simpl in H2; lia); discriminate.
  - intros H. apply (H 0); [split; simpl; lia|reflexivity].
Qed.

Lemma two_valid : valid_inst 2 [ONE; ONE] /\ valid_inst 2 [BOT; BOT]. Proof. split; small_inst. Qed.

(* Not(WithVar) asks for an instance that fails, not for none that passes. *)
Theorem C46_negation_refuted : exists m t q, is_dtree m t /\ fo_shape m t q /\ NoDup (all_vars q) /\
  (forall E, ~ trueFO (Dim m) t E [] q) /\ accepted m q.
Proof.
  exists stump, stump_tree, declared_under_not. split; [exact stump_is_dtree|]. split; [shape|]. split; [repeat constructor; simpl; tauto|]. split.
  - intros E H. apply H. exists [ONE; ONE]. split; [apply two_valid|]. cbn. apply full_or_not.
  - apply accepted_by. vm_compute. reflexivity.
Qed.
Print Assumptions C46_negation_refuted.
Theorem C46_siblings_refuted : exists m t q, is_dtree m t /\ fo_shape m t q /\ plain_not q /\
  (forall E, trueFO (Dim m) t E [] q) /\ refused m q.
Proof.
  exists stump, stump_tree, declared_twice. split; [exact stump_is_dtree|]. split; [shape|]. split; [cbn; tauto|]. split.
  - intros E. split; [exists [ONE; ONE]|exists [BOT; BOT]]; (split; [apply two_valid|cbn; apply full_or_not]).
  - apply refused_by. vm_compute. reflexivity.
Qed.
Print Assumptions C46_siblings_refuted.
Theorem C46_quantifiers_refuted : exists m t q, is_dtree m t /\ fo_shape m t q /\ plain_not q /\
  (forall E, trueFO (Dim m) t E [] q) /\ refused m q.
Proof.
  exists stump, stump_tree, quantified_twice. split; [exact stump_is_dtree|]. split; [shape|]. split; [cbn; tauto|]. split.
  - intros E. split; intros e _; [exists [ONE; ONE]|exists [BOT; BOT]]; (split; [apply two_valid|cbn; apply full_or_not]).
  - apply refused_by. vm_compute. reflexivity.
Qed.
Print Assumptions C46_quantifiers_refuted.
Theorem C46_shadowing_refuted : exists m t q, is_dtree m t /\ fo_shape m t q /\ plain_not q /\
  (forall E, trueFO (Dim m) t E [] q) /\ refused m q.
Proof.
  exists stump, stump_tree, redeclared. split; [exact stump_is_dtree|]. split; [shape|]. split; [cbn; tauto|]. split.
  - intros E. exists [ONE; ONE]. split; [apply two_valid|]. intros e _. split; [exists [BOT; BOT]; split; [apply two_valid|]|]; cbn; apply full_or_not.
  - apply refused_by. vm_compute. reflexivity.
Qed.
Print Assumptions C46_shadowing_refuted.
