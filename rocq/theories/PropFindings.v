(* Property C69: what the other files find wrong with the model is wrong with the
   Go files: wrong formulas, panics, endless runs, two answers to one question, a
   failure that is not reported, output that is not read.  Each theorem is about
   the program [P] read from the bytes (C68). *)
From Verif Require Import GoBase GoLemmas Cnf CnfSem Query QueryLemmas Walk Atoms Logop Spec Sat Compute GoLang GoSource SrcBase SrcLemmas SrcCnf SrcQuery SrcCtx SrcLogop SrcValues SrcSolver SrcCompute
  Outcome Evolve Errors Form TreeLemmas Names Ground Meaning Master Truth FirstOrder Solver AtomCnf Dimacs Run Total Optim PropContext PropTruth PropCompute PropContext PropTruth PropRefuted PropReadme PropSolver PropShared PropOptim PropSize PropExamples PropSource PropText PropProgram PropMain GoParse GoElab GoText PropBytes.
Local Open Scope string_scope.
Local Open Scope Z_scope.
Local Open Scope list_scope.

(* ---- formulas ---- *)

(* P computes a formula for q, and it is satisfiable or not. *)
Definition gets (P : program) (m : model) (q : query) (verdict : bool) : Prop := exists n0, forall n, (n0 <= n)%nat ->
  exists f h, run_encoding P n m q = (Ok [v_cnf f; VNil], h) /\ if verdict then exists r, Models r f = true else forall r, Models r f = false.
Lemma text_gets m q f c' : enc q (BasicQContext m) = (Ok f, c') -> forall n, (new_fuel m q <= n)%nat -> exists h, run_encoding prog n m q = (Ok [v_cnf f; VNil], h).
Proof.
  intros E n Hn. change (run_encoding prog n m q) with (text_new_encoding n m q). rewrite text_new by exact Hn.
  assert (Hq : q <> QNil) by (intros ->; discriminate E).
  pose proof (C63_query q (BasicQContext m) [] n Hq (NoDup_nil _) ltac:(unfold text_fuel; unfold new_fuel in Hn; cbn; lia)) as X.
  rewrite E in X. destruct X as (k & X). eexists. exact X.
Qed.
Lemma refused_gets m q : refused m q -> gets prog m q false.
Proof.
  intros (f & c' & E & U). exists (new_fuel m q). intros n Hn. destruct (text_gets m q f c' E n Hn) as (h & H). exists f, h. now split.
Qed.
Lemma accepted_gets m q : accepted m q -> gets prog m q true.
Proof.
  intros (f & c' & E & U). exists (new_fuel m q). intros n Hn. destruct (text_gets m q f c' E n Hn) as (h & H). exists f, h. now split.
Qed.

(* C38, C39 and C46: first-order queries that are true, with generators that never
   give one name to two things, and their unsatisfiable formulas; a false one with
   a satisfiable formula. *)
Theorem C69_formulas : exists P, load repo_text = Some P /\
  (exists m t g, is_dtree m t /\ (forall x y, g x = g y -> x = y) /\ (forall E, trueFO (Dim m) t E [] (undecided (Some g) (Some g)))
    /\ gets P m (undecided (Some g) (Some g)) false) /\
  (exists m t, is_dtree m t /\ (forall E, trueFO (Dim m) t E [] near_and_far) /\ gets P m near_and_far false) /\
  (exists m t, is_dtree m t /\ (forall E, trueFO (Dim m) t E [] prefer) /\ gets P m prefer false) /\
  (exists m t, is_dtree m t /\ (forall E, trueFO (Dim m) t E [] declared_twice) /\ gets P m declared_twice false) /\
  (exists m t, is_dtree m t /\ (forall E, trueFO (Dim m) t E [] quantified_twice) /\ gets P m quantified_twice false) /\
  (exists m t, is_dtree m t /\ (forall E, trueFO (Dim m) t E [] redeclared) /\ gets P m redeclared false) /\
  (exists m t, is_dtree m t /\ (forall E, ~ trueFO (Dim m) t E [] declared_under_not) /\ gets P m declared_under_not true).
Proof.
  exists prog. split; [exact load_repo|]. split; [|split; [|split; [|split; [|split; [|split]]]]].
  - destruct C38_refuted as (m & t & q & g & A & -> & B & _ & C & _ & D). exists m, t, g. split; [exact A|]. split; [exact B|]. split; [exact C|]. now apply refused_gets.
  - destruct C39_leh_refuted as (m & t & q & A & -> & _ & C & _ & D). exists m, t. split; [exact A|]. split; [exact C|]. now apply refused_gets.
  - destruct C39_hepr_refuted as (m & t & q & A & -> & _ & C & _ & D). exists m, t. split; [exact A|]. split; [exact C|]. now apply refused_gets.
  - exists stump, stump_tree. split; [exact stump_is_dtree|]. split; [|apply refused_gets, refused_by; vm_compute; reflexivity].
    intros E. split; [exists [ONE; ONE]|exists [BOT; BOT]]; (split; [apply two_valid|cbn; apply full_or_not]).
  - exists stump, stump_tree. split; [exact stump_is_dtree|]. split; [|apply refused_gets, refused_by; vm_compute; reflexivity].
    intros E. split; intros e _; [exists [ONE; ONE]|exists [BOT; BOT]]; (split; [apply two_valid|cbn; apply full_or_not]).
  - exists stump, stump_tree. split; [exact stump_is_dtree|]. split; [|apply refused_gets, refused_by; vm_compute; reflexivity].
    intros E. exists [ONE; ONE]. split; [apply two_valid|]. intros e _. split; [exists [BOT; BOT]; split; [apply two_valid|]|]; cbn; apply full_or_not.
  - exists stump, stump_tree. split; [exact stump_is_dtree|]. split; [|apply accepted_gets, accepted_by; vm_compute; reflexivity].
    intros E H. apply H. exists [ONE; ONE]. split; [apply two_valid|]. cbn. apply full_or_not.
Qed.
Print Assumptions C69_formulas.

(* ---- panics and endless runs ---- *)

Definition ends_in (P : program) (m : model) (q : query) (r : res (list val)) : Prop := exists n0, forall n, (n0 <= n)%nat -> fst (run_encoding P n m q) = r.
Lemma panic_text m q : q <> QNil -> fst (enc q (BasicQContext m)) = Panic -> ends_in prog m q Panic.
Proof.
  intros Hq E. exists (new_fuel m q). intros n Hn. change (run_encoding prog n m q) with (text_new_encoding n m q). rewrite text_new by exact Hn.
  pose proof (C63_query q (BasicQContext m) [] n Hq (NoDup_nil _) ltac:(unfold text_fuel; unfold new_fuel in Hn; cbn; lia)) as X.
  destruct (enc q (BasicQContext m)) as [[f|e| |] c']; try discriminate. exact X.
Qed.
Lemma hang_text m q : q <> QNil -> fst (enc q (BasicQContext m)) = Hang -> ends_in prog m q Hang.
Proof.
  intros Hq E. exists (new_fuel m q). intros n Hn. change (run_encoding prog n m q) with (text_new_encoding n m q). rewrite text_new by exact Hn.
  pose proof (C63_query q (BasicQContext m) [] n Hq (NoDup_nil _) ltac:(unfold text_fuel; unfold new_fuel in Hn; cbn; lia)) as X.
  destruct (enc q (BasicQContext m)) as [[f|e| |] c']; try discriminate. exact X.
Qed.

(* C36 and C37: an empty preference and a model without features panic; so do AllComp
   of a constant on a tree with a child out of range and IsNode of a variable on one
   with a feature out of range; IsNode of a constant on nodes in a circle never
   ends, however long it runs. *)
Theorem C69_panics : exists P, load repo_text = Some P /\
  (exists m t q, is_dtree m t /\ (0 < Dim m)%nat /\ ends_in P m q Panic) /\
  (exists q, forall nodes, ends_in P (mkModel 0 nodes) q Panic) /\
  (exists nodes, nodes <> [] /\ ends_in P (mkModel 1 nodes) (QAtom (AllC (mkQConst "" [BOT]) true)) Panic) /\
  (exists nodes, nodes <> [] /\ ends_in P (mkModel 1 nodes) (QWith "x" (QAtom (NodeV "x" (Some (tag "reach"))))) Panic) /\
  (exists nodes, Forall (node_valid 1 (length nodes)) nodes /\ ends_in P (mkModel 1 nodes) (QAtom (NodeC (mkQConst "" [ZERO]))) Hang).
Proof.
  exists prog. split; [exact load_repo|]. split; [|split; [|split; [|split]]].
  - exists stump, stump_tree, (QWith "x" (QWith "y" (QAtom (HeprVV "x" "y" [] (Some (fun p a b => append p (append a b))))))).
    split; [exact stump_is_dtree|]. split; [cbn; lia|]. apply panic_text; [discriminate|]. vm_compute. reflexivity.
  - exists (QWith "x" (QAtom (LehVCC "x" (mkQConst "" []) (mkQConst "" []) (Some append)))). intros nodes. apply panic_text; [discriminate|reflexivity].
  - exists [mkNode false 0 7 1; mkNode true 0 (-1) (-1)]. split; [discriminate|]. apply panic_text; [discriminate|]. vm_compute. reflexivity.
  - exists [mkNode false 7 1 1; mkNode true 0 (-1) (-1)]. split; [discriminate|]. apply panic_text; [discriminate|]. vm_compute. reflexivity.
  - exists [mkNode false 0 0 1; mkNode true 0 (-1) (-1)]. split.
    + constructor; [right; simpl; lia|]. constructor; [left; reflexivity|constructor].
    + apply hang_text; [discriminate|]. vm_compute. reflexivity.
Qed.
Print Assumptions C69_panics.

(* ---- two answers ---- *)

Lemma later_right o o' path k : right_os o path -> later o o' k -> right_os o' path.
Proof.
  intros R L. destruct (lt_rest _ _ _ L) as (A & B & C & D & E & _). constructor.
  - rewrite E. apply R.
  - rewrite A. apply R.
  - rewrite B. apply R.
  - rewrite C. apply R.
  - rewrite D. apply R.
Qed.

Definition wfb (f : CNF) : bool :=
  (0 <=? tv f) && forallb (forallb (fun l => negb (l =? 0) && (Z.abs l <=? tv f))) (sClauses f) && forallb (forallb (fun l => negb (l =? 0) && (Z.abs l <=? tv f))) (cClauses f).
Lemma wfb_ok f : wfb f = true -> cnf_wf f.
Proof.
  intros H. apply andb_prop in H as [H C]. apply andb_prop in H as [H B]. split; [now apply Z.leb_le|].
  assert (G : forall cls, forallb (forallb (fun l => negb (l =? 0) && (Z.abs l <=? tv f))) cls = true -> clauses_bound (tv f) cls).
  { intros cls X. apply Forall_forall. intros cl Hc. apply Forall_forall. intros l Hl. rewrite forallb_forall in X. specialize (X _ Hc).
    rewrite forallb_forall in X. specialize (X _ Hl). apply andb_prop in X as [X Y]. apply negb_true_iff, Z.eqb_neq in X. apply Z.leb_le in Y. now split. }
  split; now apply G.
Qed.
Definition twice_ok : bool :=
  match enc both (BasicQContext stump) with
  | (Ok f1, c1) =>
      match enc both c1 with
      | (Ok f2, _) => wfb f1 && (tv f1 <? 2 ^ 63) && legalb (sClauses f1 ++ cClauses f1) && negb (sat_cnf f1) &&
          (wfb f2 && (tv f2 <? 2 ^ 63) && legalb (sClauses f2 ++ cClauses f2) && sat_cnf f2) &&
          (comb_fuel (CAtom both false) c1 <=? 60)%nat
      | _ => false
      end
  | _ => false
  end.
Lemma asked_twice : exists f1 c1 f2 c2, enc both (BasicQContext stump) = (Ok f1, c1) /\ enc both c1 = (Ok f2, c2) /\
  (cnf_wf f1 /\ tv f1 < 2 ^ 63 /\ forall r, Models r f1 = false) /\ (cnf_wf f2 /\ tv f2 < 2 ^ 63 /\ exists r, Models r f2 = true) /\
  NoDup (map fst (svars (cScoper c1))) /\ (comb_fuel (CAtom both false) c1 <= 60)%nat.
Proof.
  assert (T : twice_ok = true) by (vm_compute; reflexivity). unfold twice_ok in T.
  destruct (enc both (BasicQContext stump)) as [[f1|e1| |] c1] eqn:E1; try discriminate. destruct (enc both c1) as [[f2|e2| |] c2] eqn:E2; try discriminate.
  repeat match goal with H : _ && _ = true |- _ => apply andb_prop in H as [? ?] end.
  exists f1, c1, f2, c2. split; [reflexivity|]. split; [exact E2|]. split; [|split; [|split]].
  - split; [now apply wfb_ok|]. split; [now apply Z.ltb_lt|]. intros r. apply not_true_iff_false. intros X. unfold Models in X. apply andb_true_iff in X as [X Y].
    assert (sat_cnf f1 = true) by (apply (sat_cnf_spec f1); [assumption|exists r; auto]).
    match goal with H : negb (sat_cnf f1) = true |- _ => apply negb_true_iff in H end. congruence.
  - split; [now apply wfb_ok|]. split; [now apply Z.ltb_lt|]. match goal with H : sat_cnf f2 = true |- _ => apply sat_cnf_spec in H as (r & A & B); [|assumption] end.
    exists r. unfold Models. now rewrite A, B.
  - refine (proj2 (C63_contexts stump both (BasicQContext stump) (Ok f1) c1) (NoDup_nil _) _ E1). rewrite E1. discriminate.
  - now apply Nat.leb_le.
Qed.

(* C34: with every correct solver, a query that is false is found false, and true
   when it is asked again with the same context and solver. *)
Theorem C69_twice : exists P, load repo_text = Some P /\
  exists m t q N, is_dtree m t /\ fo_query m t q /\ tidy N (Dim m) q /\ ~ true_query (Dim m) t q /\
  exists n0, forall o path n, right_os o path -> (n0 <= n)%nat ->
  let k := CAtom q false in
  exists h1 h2, run_sat P n m o path k = (Ok [VBool false; VNil], h1) /\
    call_func P n (type_of (v_comb k) ++ ".Sat") [v_comb k; VPtr 0; VPtr 2] h1 = (Ok [VBool true; VNil], h2).
Proof.
  exists prog. split; [exact load_repo|]. exists stump, stump_tree, both, comp_naming.
  split; [exact stump_is_dtree|]. split; [exact both_fo|]. split; [exact both_tidy|]. split.
  { intros (E & _ & H1 & H2). cbn in H1, H2. assert (I0 : in_range 2 0) by (unfold in_range; lia).
    specialize (H1 0 I0). specialize (H2 0 I0). change (feat [ONE; BOT] 0) with ONE in H1. change (feat [ZERO; BOT] 0) with ZERO in H2.
    destruct H1 as [H1|H1]; [discriminate|]. destruct H2 as [H2|H2]; [discriminate|]. rewrite <- H1 in H2. discriminate. }
  exists 60%nat. intros o path n R Hn k. destruct (asked_twice) as (f1 & c1 & f2 & c2 & E1 & E2 & (W1 & V1 & U1) & (W2 & V2 & U2) & F1 & F2).
  unfold run_sat. change (run_solver prog n stump o path) with (text_start n stump o path). rewrite started; [|lia|apply R].
  pose proof (proj2 (Step_correct (env_steps o path) both (mkSolver "" 0) _ f1 c1 (right_files _ _ _ _ R) (right_correct _ _ _ _ R) E1 W1 V1) U1) as S1.
  pose proof (C65_Sat k path "" (BasicQContext stump) o [] [] n ltac:(discriminate) (NoDup_nil _) ltac:(cbn; lia)) as X1. cbv zeta in X1. cbn [CombSat k] in X1. rewrite S1 in X1.
  destruct X1 as (o1 & h1 & L1 & X1). cbn [bs_output] in X1.
  pose proof (later_right _ _ _ _ R L1) as R1.
  destruct (proj1 (Step_correct (env_steps o1 path) both (mkSolver "" 0) c1 f2 c2 (right_files _ _ _ _ R1) (right_correct _ _ _ _ R1) E2 W2 V2) U2) as (out & ls & r & S2 & _).
  pose proof (C65_Sat k path "" c1 o1 [] h1 n ltac:(discriminate) F1 ltac:(unfold k; lia)) as X2. cbv zeta in X2. cbn [CombSat k] in X2. rewrite S2 in X2.
  destruct X2 as (o2 & h2 & L2 & X2). eexists. eexists. split; [exact X1|]. exact X2.
Qed.
Print Assumptions C69_twice.

(* ---- a failure that is not reported ---- *)

(* C62: if there is no room for a temporary file, ComputeOptim returns, without an
   error, that there is no optimum, whatever was asked. *)
Theorem C69_no_file : exists P, load repo_text = Some P /\
  forall m o path fg og v H n, o_stat o path = None -> o_tmp o (o_time o) = None ->
  (qheight (fg v) <= H)%nat -> (forall k, (qheight (og v k) <= H)%nat) -> (Dim m + 3 * length (Nodes m) + 3 * H + 15 < n)%nat ->
  exists h, run_optim P n m o path fg og v = (Ok [v_opt (mkOpt false (mkQConst "" []) 0); VNil], h).
Proof.
  exists prog. split; [exact load_repo|]. intros m o path fg og v H n St T Hf Ho Hn. destruct n as [|n]; [lia|].
  unfold run_optim. change (run_solver prog (S n) m o path) with (text_start (S n) m o path). rewrite started; [|lia|exact St].
  pose proof (C65_ComputeOptim fg og v H path "" (BasicQContext m) o [] [] n Hf Ho (NoDup_nil _) ltac:(cbn; lia)) as X. cbv zeta in X.
  unfold ComputeOptim in X. cbn [env_optim env_at e_opttmp] in X. unfold tmp_ok in X. rewrite T in X.
  destruct X as (o' & h & _ & X). eexists. exact X.
Qed.
Print Assumptions C69_no_file.

(* ---- output that is not read ---- *)

(* C50: right answers in the output format of the SAT competitions that Values does
   not read: with two blanks between numbers, or a blank at the end of a line, it
   returns an error; with a line that is only a v it panics. *)
Definition values_of (P : program) (n : nat) (out : string) (c : ctx) : res (list val) :=
  fst (call_func P n "compute.binSolver.Values" [v_solver "solver" out; VLst [VStr "x"]; VPtr 0] [v_ctx c]).
Definition not_read (P : program) (lines : list vline) (good : res (list val) -> Prop) : Prop :=
  exists m f c' w ls, let out := sjoin nl (map vtext lines) in
    (exists n0, forall n, (n0 <= n)%nat -> exists h, run_encoding P n m (QWith "x" (QAtom (FullV "x"))) = (Ok [v_cnf f; VNil], v_ctx c' :: h)) /\
    competition out ls /\ gives (tv f) ls w /\ Models w f = true /\
    exists n0, forall n, (n0 <= n)%nat -> good (values_of P n out c').
Theorem C69_values : exists P, load repo_text = Some P /\
  let refuses r := exists s, r = Ok [s; VLst []; VErr (atoi_err "") []] in
  not_read P two_blanks refuses /\ not_read P blank_end refuses /\ not_read P lone_v (fun r => r = Panic).
Proof.
  exists prog. split; [exact load_repo|]. intros refuses.
  assert (G : forall lines r (good : res (list val) -> Prop), unread lines r ->
    (forall s, good (match r with Ok ks => Ok [s; VLst (map v_const ks); VNil] | Err e => Ok [s; VLst []; VErr e []] | Panic => Panic | Hang => Hang end)) ->
    not_read prog lines good).
  { intros lines r good (m & f & c' & w & ls & U) HG. cbv zeta in U. destruct U as (E & A & B & C & V). exists m, f, c', w, ls. cbv zeta.
    split; [|split; [exact A|split; [exact B|split; [exact C|]]]].
    - set (q := QWith "x" (QAtom (FullV "x"))) in *. exists (new_fuel m q). intros n Hn. change (run_encoding prog n m q) with (text_new_encoding n m q). rewrite text_new by exact Hn.
      pose proof (C63_query q (BasicQContext m) [] n ltac:(discriminate) (NoDup_nil _) ltac:(unfold text_fuel; unfold new_fuel in Hn; cbn in Hn |- *; lia)) as X.
      rewrite E in X. destruct X as (k & X). exists k. exact X.
    - exists (Dim (cModel c') + 4)%nat. intros n Hn. unfold values_of. fold gocall.
      change (call_func prog n "compute.binSolver.Values") with (gocall n "compute.binSolver.Values").
      change [VLst [VStr "x"]; VPtr 0] with [VLst (map VStr ["x"]); VPtr 0].
      rewrite (C65_Values "solver" (sjoin nl (map vtext lines)) ["x"] c' [] n Hn). specialize (HG (v_solver "solver" (sjoin nl (map vtext lines)))).
      destruct (Values (sjoin nl (map vtext lines)) ["x"] c') as [r' c'']. cbn [fst] in V. subst r'. destruct r; exact HG. }
  destruct C50_any_output_refuted as (A & B & C). split; [|split].
  - apply (G _ _ _ A). intros s. now exists s.
  - apply (G _ _ _ B). intros s. now exists s.
  - now apply (G _ _ _ C).
Qed.
Print Assumptions C69_values.

(* ---- contexts ---- *)

(* Calls of methods of one scoper, one after the other; the results of the last. *)
Fixpoint scoper_calls (P : program) (n : nat) (s : val) (calls : list (string * list val)) (last : res (list val)) : res (list val) :=
  match calls with
  | [] => last
  | (f, args) :: r =>
      match fst (call_func P n ("query.baseScoper." ++ f) (s :: args) []) with
      | Ok (s' :: rs) => scoper_calls P n s' r (Ok rs)
      | Ok [] => Panic
      | other => other
      end
  end.
Definition new_scoper : val := v_scoper (cScoper (BasicQContext (mkModel 1 []))).

(* C10 and C07: the value of a constant is that of the outermost quantifier with its
   name; a variable declared under two quantifiers before a Reset makes ScopeVar panic
   under one quantifier after it. *)
Theorem C69_scopes : exists P, load repo_text = Some P /\ forall n, (20 <= n)%nat ->
  (exists b, scoper_calls P n new_scoper
    [("AddScope", [VStr "c"]); ("SetScope", [VInt 0; v_feats [ZERO]]); ("AddScope", [VStr "c"]); ("SetScope", [VInt 1; v_feats [ONE]]);
     ("ScopeConst", [v_const (mkQConst "c" [])])] Panic = Ok [v_const (mkQConst "c" [ZERO]); VBool b]) /\
  scoper_calls P n new_scoper
    [("AddScope", [VStr "a"]); ("AddScope", [VStr "b"]); ("AddVar", [VStr "v"]); ("Reset", []); ("AddScope", [VStr "c"]); ("ScopeVar", [VStr "v"])] Panic = Panic /\
  (exists w, scoper_calls P n new_scoper [("AddScope", [VStr "c"]); ("ScopeVar", [VStr "v"])] Panic = Ok [VStr w]).
Proof.
  exists prog. split; [exact load_repo|]. intros n Hn.
  assert (S : forall f s args s' rs r last, (forall h, gocall n ("query.baseScoper." ++ f) (s :: args) h = (Ok (s' :: rs), h)) ->
    scoper_calls prog n s ((f, args) :: r) last = scoper_calls prog n s' r (Ok rs)).
  { intros f s args s' rs r last H. cbn [scoper_calls]. specialize (H []). unfold gocall in H. now rewrite H. }
  unfold new_scoper. split; [|split].
  - eexists.
    rewrite (S "AddScope" _ _ (v_scoper (AddScope _ "c")) []) by (intros h; apply go_AddScope; lia).
    erewrite (S "SetScope") by (intros h; apply go_SetScope; lia).
    rewrite (S "AddScope" _ _ (v_scoper (AddScope _ "c")) []) by (intros h; apply go_AddScope; lia).
    erewrite (S "SetScope") by (intros h; apply go_SetScope; lia).
    erewrite (S "ScopeConst") by (intros h; apply go_ScopeConst; lia). reflexivity.
  - rewrite (S "AddScope" _ _ (v_scoper (AddScope _ "a")) []) by (intros h; apply go_AddScope; lia).
    rewrite (S "AddScope" _ _ (v_scoper (AddScope _ "b")) []) by (intros h; apply go_AddScope; lia).
    erewrite (S "AddVar") by (intros h; apply go_AddVar; lia).
    erewrite (S "Reset") by (intros h; apply go_ScoperReset; lia).
    rewrite (S "AddScope" _ _ (v_scoper (AddScope _ "c")) []) by (intros h; apply go_AddScope; lia).
    cbn [scoper_calls]. change (call_func prog n) with (gocall n). change ("query.baseScoper." ++ "ScopeVar")%string with "query.baseScoper.ScopeVar".
    match goal with |- context [gocall n ?f (v_scoper ?s :: [VStr ?v]) []] => rewrite (go_ScopeVar n [] s v ltac:(cbn; lia)) end. reflexivity.
  - eexists. rewrite (S "AddScope" _ _ (v_scoper (AddScope _ "c")) []) by (intros h; apply go_AddScope; lia).
    cbn [scoper_calls]. change (call_func prog n) with (gocall n). change ("query.baseScoper." ++ "ScopeVar")%string with "query.baseScoper.ScopeVar".
    match goal with |- context [gocall n ?f (v_scoper ?s :: [VStr ?v]) []] => rewrite (go_ScopeVar n [] s v ltac:(cbn; lia)) end. reflexivity.
Qed.
Print Assumptions C69_scopes.

(* ---- concrete cases ---- *)

(* The text, run: the query of C69_twice asked twice of a correct solver, and an
   optimum that exists, asked for on a full disk. *)
Definition answers (n : nat) : res (list val) * res (list val) :=
  let k := v_comb (CAtom both false) in
  match run_sat prog n stump sample_os "/bin/sat" (CAtom both false) with
  | (r, h) => (r, fst (call_func prog n (type_of k ++ ".Sat") [k; VPtr 0; VPtr 2] h))
  end.
Definition full_os : os :=
  mkOs [] 0 0 (fun _ => None) (fun _ => true) (fun _ _ => true) (o_exec sample_os) (o_stat sample_os) "".
Definition found (r : res (list val)) : option bool :=
  match r with Ok [VStc _ fs; VNil] => match find (fun p => String.eqb (fst p) "Found") fs with Some (_, VBool b) => Some b | _ => None end | _ => None end.
Example C69_case :
  answers 60 = (Ok [VBool false; VNil], Ok [VBool true; VNil]) /\
  let run o := found (fst (run_optim prog 60 (mkModel 1 []) o "/bin/sat" (fun v => QAtom (FullV v)) (fun v k => QNot (QAtom (FullV v))) "x")) in
  run sample_os = Some true /\ run full_os = Some false.
Proof. vm_compute. repeat split. Qed.
