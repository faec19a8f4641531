(* Property C67: the two example programs (examples/computation.go and
   examples/evaluation.go), as the text has them. *)
From Verif Require Import GoBase GoLemmas Cnf CnfSem Query QueryLemmas Walk Atoms Logop Spec Sat Compute GoLang GoSource SrcBase SrcLemmas SrcCnf SrcQuery SrcCtx SrcLogop SrcValues SrcSolver SrcCompute
  Outcome Evolve Errors Form TreeLemmas Names Ground Meaning Master Truth FirstOrder Solver AtomCnf Dimacs Run Total Optim PropContext PropTruth PropCompute PropContext PropTruth PropRefuted PropShared PropOptim PropSize PropExamples PropText PropProgram.
Local Open Scope string_scope.
Local Open Scope Z_scope.
Local Open Scope list_scope.

(* What the program has printed. *)
Definition printed (h : heap) : string := match find_sys 0 h with Some (_, o) => o_out o | None => "" end.
Definition the_path : string := "path_to_solver_binary".

Lemma the_reason e : minimal_reason 3 opt_shape opt_case e -> e = [ZERO; BOT; BOT].
Proof.
  intros [(V & S & C) M].
  assert (I : forall i, i = 0 \/ i = 1 \/ i = 2 -> in_range 3 i) by (unfold in_range; cbn; lia).
  destruct V as [L VF]. destruct e as [|a [|b [|d [|? ?]]]]; try discriminate L.
  pose proof (S 0 (I 0 ltac:(lia))) as S0. pose proof (S 1 (I 1 ltac:(lia))) as S1. pose proof (S 2 (I 2 ltac:(lia))) as S2. change (a = BOT \/ a = ZERO) in S0. change (b = BOT \/ b = ONE) in S1. change (d = BOT \/ d = ONE) in S2.
  assert (G : forall x, completion 3 [ZERO; BOT; BOT] x -> classify opt_shape x = true).
  { intros x (_ & _ & X). destruct (X 0 (I 0 ltac:(lia))) as [X0|X0]; [discriminate|].
    change (feat [ZERO; BOT; BOT] 0) with ZERO in X0. cbn [classify opt_shape]. rewrite <- X0. cbn [Z.eqb]. change (ZERO =? ONE) with false. cbv iota. now destruct (feat x 1 =? ONE), (feat x 2 =? ONE). }
  assert (K : classify opt_shape opt_case = true) by reflexivity. rewrite K in C.
  destruct S0 as [->| ->].
  - (* the first feature is not defined: (1, 1, 0) or (1, 1, 1) is a completion *)
    exfalso. assert (X : exists z, completion 3 [BOT; b; d] [ONE; ONE; z] /\ (z = ZERO \/ z = ONE)).
    { exists (if d =? BOT then ZERO else ONE). split; [|destruct (d =? BOT); auto].
      split; [split; [reflexivity|]|split].
      - repeat (apply Forall_cons; [unfold valid_feat; destruct (d =? BOT); auto|]). apply Forall_nil.
      - intros i Hi. assert (i = 0 \/ i = 1 \/ i = 2) as [->|[->| ->]] by (unfold in_range in Hi; cbn in Hi; lia); try discriminate. change ((if d =? BOT then ZERO else ONE) <> BOT). destruct (d =? BOT); discriminate.
      - intros i Hi. assert (i = 0 \/ i = 1 \/ i = 2) as [->|[->| ->]] by (unfold in_range in Hi; cbn in Hi; lia); [now left|exact S1|].
        change (d = BOT \/ d = if d =? BOT then ZERO else ONE). destruct S2 as [->| ->]; [now left|now right]. }
    destruct X as (z & X & [-> | ->]); apply C in X; vm_compute in X; discriminate.
  - symmetry. apply M.
    + split; [split; [reflexivity|]|split].
      * repeat (apply Forall_cons; [unfold valid_feat; auto|]). apply Forall_nil.
      * intros i Hi. assert (i = 0 \/ i = 1 \/ i = 2) as [->|[->| ->]] by (unfold in_range in Hi; cbn in Hi; lia); (now left) || (now right).
      * intros x Hx. rewrite K. now apply G.
    + intros i Hi. assert (i = 0 \/ i = 1 \/ i = 2) as [->|[->| ->]] by (unfold in_range in Hi; cbn in Hi; lia); (now left) || (now right).
Qed.

Lemma later_out o o' m : later o o' m -> o_out o = o_out o'.
Proof. intros L. symmetry. apply (lt_rest _ _ _ L). Qed.
Lemma all_kept o m : new_names o -> files_after o m = o_files o.
Proof.
  intros N. symmetry. rewrite <- (later_files _ _ _ N (osr_later o m (o_writes o))). cbn [osr o_files]. now rewrite afters_filter.
Qed.

(* ---- running a main function ---- *)

Lemma main_run n f fn k o st r st' :
  find_func prog f = Some fn ->
  run_block (EX n) None (firstn k (fbody fn)) (mkMs [[]] [] []) = (Ok FNext, st) ->
  plug n [] (run_block (EX n) None (skipn k (fbody fn)) (mkMs (mEnv st) (mDefers st) (mHeap st ++ [VSys o]))) = (r, st') ->
  run_main prog n f k o
  = match r with
    | Ok FNext => (Ok tt, mHeap st')
    | Ok _ => (stuck, mHeap st')
    | Err e => (Err e, mHeap st')
    | Panic => (Panic, mHeap st')
    | Hang => (Hang, mHeap st')
    end.
Proof.
  intros H1 H2 H3. unfold run_main. rewrite H1. change (call_func prog) with gocall. rewrite H2.
  change (plug n [] ?p) with p in H3. rewrite H3. now destruct r as [[]| | |].
Qed.

Lemma ev_sys n f es st st1 vs r : x_map (EV n) es st = (Ok vs, st1) -> with_sys (sys f vs) st1 = r -> EV n (XSys f es) st = r.
Proof. intros H <-. cbn [eval]. unfold xbind. now rewrite H. Qed.

Lemma ev_val_meth n r m es t fs vs st st1 st2 r1 h1 :
  EV n r st = (Ok (VStc t fs), st1) -> x_map (EV n) es st1 = (Ok vs, st2) -> kind_of prog (GoLang.dot t m) = Some false ->
  gocall n (GoLang.dot t m) (VStc t fs :: vs) (mHeap st2) = (r1, h1) ->
  EV n (XMeth r m es) st = (match r1 with Ok l => Ok (one l) | Err e => Err e | Panic => Panic | Hang => Hang end, mkMs (mEnv st2) (mDefers st2) h1).
Proof.
  intros H1 H2 H3 H4. cbn [eval]. unfold xbind at 1. rewrite H1. unfold xbind at 1. rewrite H2. unfold x_method, method, own_method. rewrite H3.
  unfold xbind, x_call. rewrite H4. now destruct r1.
Qed.

(* ---- examples/computation.go ---- *)

Definition comp_env : list GoLang.frame :=
  [[("strictSubsumption", v_og strictSubsumption); ("sufficientReason", v_fg (sufficientReason (mkQConst "" opt_case)));
    ("c", v_const (mkQConst "" opt_case)); ("ctx", VPtr 0); ("tree", v_model opt_tree)]]%string.
Lemma comp_start n : (1 <= n)%nat ->
  run_block (EX n) None (firstn 2 (fbody src_main_ComputationExample)) (mkMs [[]] [] [])
  = (Ok FNext, mkMs [[("ctx", VPtr 0); ("tree", v_model opt_tree)]]%string [] [v_ctx (BasicQContext opt_tree)]).
Proof.
  intros Hn. cbv beta iota delta [src_main_ComputationExample fbody firstn].
  eapply blk_step; [ex1|]. eapply blk_step; [|apply blk_nil].
  eapply ex_assign; [eapply ev_call; [evs|apply (go_BasicQContext n [] opt_tree); exact Hn|reflexivity]|asg].
Qed.
Lemma comp_lits n h :
  plug n [] (run_block (EX n) None (skipn 2 (fbody src_main_ComputationExample)) (mkMs [[("ctx", VPtr 0); ("tree", v_model opt_tree)]]%string [] h))
  = plug n [] (run_block (EX n) None (skipn 5 (fbody src_main_ComputationExample)) (mkMs comp_env [] h)).
Proof.
  cbv beta iota delta [src_main_ComputationExample fbody skipn].
  st1. erewrite plug_step; [|reflexivity]. erewrite plug_step; [|reflexivity]. reflexivity.
Qed.

(* The letters of a word, with spaces between them. *)
Fixpoint spaced (s : string) : string :=
  match s with
  | String c EmptyString => String c EmptyString
  | String c r => String c (String " " (spaced r))
  | EmptyString => EmptyString
  end.
Lemma show_letters s : show_list (map VStr (letters s)) = Some (spaced s).
Proof.
  induction s as [|c r IH]; [reflexivity|]. destruct r as [|c' r]; [reflexivity|].
  change (option_map (fun t => (String c "" ++ " " ++ t)%string) (show_list (map VStr (letters (String c' r)))) = Some (String c (String " " (spaced (String c' r))))).
  rewrite IH. reflexivity.
Qed.
Lemma ev_call_hang n f es st st1 vs h' :
  x_map (EV n) es st = (Ok vs, st1) -> gocall n f vs (mHeap st1) = (Hang, h') -> EV n (XCall f es) st = (Hang, mkMs (mEnv st1) (mDefers st1) h').
Proof. intros H1 H2. cbn [eval]. unfold xbind. rewrite H1. unfold x_call. now rewrite H2. Qed.
Lemma ev_prim_is_panic n f es st st1 vs : x_map (EV n) es st = (Ok vs, st1) -> prim f vs = Panic -> EV n (XPrim f es) st = (Panic, st1).
Proof. intros H1 H2. cbn [eval]. unfold xbind. rewrite H1. unfold xlift. now rewrite H2. Qed.
Definition shown (x : OptOutput) : string :=
  (if oFound x then "Value found: [" ++ spaced (AsString (oValue x)) ++ "]" ++ newline else "No value exists." ++ newline)%string.
Lemma print_found s o : sys "fmt.Printf" [VStr ("Value found: %s" ++ newline); VLst (map VStr (letters s))] o
  = (Ok VNil, os_print o ("Value found: [" ++ spaced s ++ "]" ++ newline)%string).
Proof.
  pose proof (show_letters s) as H. remember (map VStr (letters s)) as l. clear Heql. remember (spaced s) as t. clear Heqt.
  assert (F : format ("Value found: %s" ++ newline) [VLst l]
    = match show_list l with Some t => Some ("Value found: [" ++ t ++ "]" ++ newline, [])%string | None => None end).
  { cbn. now destruct (show_list l). }
  change (sys "fmt.Printf" [VStr ("Value found: %s" ++ newline); VLst l] o)
    with (match format ("Value found: %s" ++ newline) [VLst l] with Some (t, _) => (Ok VNil, os_print o t) | None => (stuck, o) end).
  now rewrite F, H.
Qed.

(* The program is the model, whatever the operating system and the solver do. *)
Theorem C67_computation_text : forall o n, (70 <= n)%nat ->
  let p := run_main prog (S n) "main.ComputationExample" 2 o in
  match o_stat o the_path with
  | Some _ => fst p = Panic /\ printed (snd p) = o_out o
  | None =>
      match ComputeOptim n (env_optim o the_path) (sufficientReason (mkQConst "" opt_case)) strictSubsumption "x" (BasicQContext opt_tree) (mkSolver "" 0) with
      | (Ok x, sv, _) => fst p = Ok tt /\ printed (snd p) = (o_out o ++ shown x)%string /\ end_files (snd p) = files_after o (S (bs_calls sv))
      | (Err _, sv, _) => fst p = Panic /\ printed (snd p) = o_out o /\ end_files (snd p) = files_after o (S (bs_calls sv))
      | (Panic, _, _) => fst p = Panic
      | (Hang, _, _) => fst p = Hang
      end
  end.
Proof.
  intros o n Hn p.
  pose proof (C65_BinSolver the_path (BasicQContext opt_tree) o [] (S n) ltac:(lia)) as BS.
  destruct (o_stat o the_path) as [er|] eqn:St.
  { unfold p. erewrite main_run; [|reflexivity|apply comp_start; lia|].
    2:{ cbn [mEnv mDefers mHeap app]. rewrite comp_lits. cbv beta iota delta [src_main_ComputationExample fbody skipn comp_env].
        erewrite plug_step; [|eapply ex_assign2; [eapply ev_call; [evs|exact BS|reflexivity]|asg|asg]].
        st1. erewrite plug_panic; [|eapply ex_expr_panic; eapply ev_prim_is_panic; [evs|reflexivity]]. reflexivity. }
    cbn. auto. }
  pose proof (C65_ComputeOptim (sufficientReason (mkQConst "" opt_case)) strictSubsumption "x" 6 the_path "" (BasicQContext opt_tree) o [] [] n
    ltac:(cbn; lia) ltac:(intros; cbn; lia) (NoDup_nil _) ltac:(cbn; lia)) as X. cbv zeta in X.
  destruct (ComputeOptim _ _ _ _ _ _ _) as [[r sv] c'].
  assert (EP : forall q, plug (S n) [] (run_block (EX (S n)) None (skipn 7 (fbody src_main_ComputationExample))
      (mkMs [[("err", VNil); ("solver", VPtr 2); ("strictSubsumption", v_og strictSubsumption);
              ("sufficientReason", v_fg (sufficientReason {| cID := ""; cVal := opt_case |}));
              ("c", v_const {| cID := ""; cVal := opt_case |}); ("ctx", VPtr 0); ("tree", v_model opt_tree)]]%string []
            [v_ctx (BasicQContext opt_tree); VSys o; v_solver the_path ""])) = q ->
     p = match q with
         | (Ok FNext, st') => (Ok tt, mHeap st')
         | (Ok _, st') => (stuck, mHeap st')
         | (Err e, st') => (Err e, mHeap st')
         | (Panic, st') => (Panic, mHeap st')
         | (Hang, st') => (Hang, mHeap st')
         end).
  { intros [r0 st'] Q. unfold p. erewrite main_run; [|reflexivity|apply comp_start; lia|].
    2:{ cbn [mEnv mDefers mHeap app]. rewrite comp_lits. cbv beta iota delta [src_main_ComputationExample fbody skipn comp_env].
        erewrite plug_step; [|eapply ex_assign2; [eapply ev_call; [evs|exact BS|reflexivity]|asg|asg]].
        st1. st1. st1. st1. st1. exact Q. }
    now destruct r0 as [[]| | |]. }
  cbv beta iota delta [src_main_ComputationExample fbody skipn] in EP.
  destruct r as [x|e| |].
  - destruct X as (o' & h & L & X). destruct x as [[] v k].
    + assert (EQ : p = (Ok tt, v_ctx c' :: VSys (os_print o' (shown (mkOpt true v k))) :: v_solver the_path (bs_output sv) :: h)).
      { eapply eq_trans; [apply EP; reflexivity|].
        erewrite plug_step; [|eapply ex_assign2; [eapply ev_call; [evs|exact X|reflexivity]|asg|asg]].
        st1. st1. st1. st1. st1.
        unfold v_opt. cbn [oFound oValue oCalls app]. erewrite plug_if; [|blk|ev]. red_cond. cbv iota.
        erewrite plug_step; [|eapply ex_expr; eapply ev_sys; [evs|]].
        2:{ unfold with_sys. cbn [mHeap]. change (find_sys 0 _) with (Some (1%nat, o')). cbv iota beta. rewrite print_found. reflexivity. }
        sts. reflexivity. }
      rewrite EQ. cbn [fst snd]. split; [reflexivity|]. split; [|exact (lt_files _ _ _ L)].
      rewrite (later_out _ _ _ L). reflexivity.
    + assert (EQ : p = (Ok tt, v_ctx c' :: VSys (os_print o' (shown (mkOpt false v k))) :: v_solver the_path (bs_output sv) :: h)).
      { eapply eq_trans; [apply EP; reflexivity|].
        erewrite plug_step; [|eapply ex_assign2; [eapply ev_call; [evs|exact X|reflexivity]|asg|asg]].
        st1. st1. st1. st1. st1.
        unfold v_opt. cbn [oFound oValue oCalls app]. erewrite plug_if; [|blk|ev]. red_cond. cbv iota.
        erewrite plug_step; [|eapply ex_expr; eapply ev_sys; [evs|reflexivity]].
        sts. reflexivity. }
      rewrite EQ. cbn [fst snd]. split; [reflexivity|]. split; [|exact (lt_files _ _ _ L)].
      rewrite (later_out _ _ _ L). reflexivity.
  - destruct X as (o' & h & L & X).
    assert (EQ : p = (Panic, v_ctx c' :: VSys o' :: v_solver the_path (bs_output sv) :: h)).
    { eapply eq_trans; [apply EP; reflexivity|].
      erewrite plug_step; [|eapply ex_assign2; [eapply ev_call; [evs|exact X|reflexivity]|asg|asg]].
      st1. erewrite plug_panic; [|eapply ex_expr_panic; eapply ev_prim_is_panic; [evs|reflexivity]]. reflexivity. }
    rewrite EQ. cbn [fst snd]. split; [reflexivity|]. split; [|exact (lt_files _ _ _ L)].
    rewrite (later_out _ _ _ L). reflexivity.
  - destruct (gocall (S n) "compute.ComputeOptim" _ _) as [r1 h1] eqn:G. cbn [fst] in X. subst r1.
    erewrite EP; [|erewrite plug_panic; [|eapply ex_assign2_panic; eapply ev_call_panic; [evs|exact G]]; reflexivity]. reflexivity.
  - destruct (gocall (S n) "compute.ComputeOptim" _ _) as [r1 h1] eqn:G. cbn [fst] in X. subst r1.
    erewrite EP; [|erewrite plug_hang; [|eapply ex_assign2_hang; eapply ev_call_hang; [evs|exact G]]; reflexivity]. reflexivity.
Qed.
Print Assumptions C67_computation_text.

(* A working solver: the only minimal sufficient reason is printed. *)
Theorem C67_computation : forall o n, right_os o the_path -> new_names o -> (71 <= n)%nat ->
  let p := run_main prog n "main.ComputationExample" 2 o in
  fst p = Ok tt /\ printed (snd p) = (o_out o ++ "Value found: [0 _ _]" ++ newline)%string /\ end_files (snd p) = o_files o /\
  minimal_reason 3 opt_shape opt_case [ZERO; BOT; BOT].
Proof.
  intros o n R NN Hn. pose proof (ro_stat _ _ R) as St.
  destruct n as [|n]; [lia|].
  assert (ET : e_opttmp (env_optim o the_path) = true).
  { cbn. unfold tmp_ok. pose proof (ro_tmp _ _ R (o_time o)). now destruct (o_tmp o (o_time o)). }
  destruct (C42_minimal_reason (env_optim o the_path) opt_tree opt_shape opt_case n (mkSolver "" 0) opt_is_dtree opt_valid opt_full ltac:(vm_compute; reflexivity)
    (right_files _ _ _ _ R) (right_correct _ _ _ _ R) ET ltac:(cbn; lia)) as (e & k & s' & c' & E & M & _ & B).
  pose proof M as M'. apply the_reason in M. subst e.
  pose proof (C67_computation_text o n ltac:(lia)) as X. cbv zeta in X. rewrite St, E in X. destruct X as (X1 & X2 & X3).
  split; [exact X1|]. split; [exact X2|]. split; [|exact M']. rewrite X3. apply all_kept. exact NN.
Qed.
Print Assumptions C67_computation.

(* ---- examples/evaluation.go ---- *)

Definition eval_query : query := smaller_or_not (mkQConst "" eval_case).
Definition eval_env : list GoLang.frame :=
  [[("qry", v_query eval_query); ("y", VStr "y"); ("c", v_const (mkQConst "" eval_case)); ("ctx", VPtr 0); ("tree", v_model eval_tree)]]%string.
Lemma eval_start n : (1 <= n)%nat ->
  run_block (EX n) None (firstn 2 (fbody src_main_EvaluationExample)) (mkMs [[]] [] [])
  = (Ok FNext, mkMs [[("ctx", VPtr 0); ("tree", v_model eval_tree)]]%string [] [v_ctx (BasicQContext eval_tree)]).
Proof.
  intros Hn. cbv beta iota delta [src_main_EvaluationExample fbody firstn].
  eapply blk_step; [ex1|]. eapply blk_step; [|apply blk_nil].
  eapply ex_assign; [eapply ev_call; [evs|apply (go_BasicQContext n [] eval_tree); exact Hn|reflexivity]|asg].
Qed.
Lemma eval_lits n h :
  plug n [] (run_block (EX n) None (skipn 2 (fbody src_main_EvaluationExample)) (mkMs [[("ctx", VPtr 0); ("tree", v_model eval_tree)]]%string [] h))
  = plug n [] (run_block (EX n) None (skipn 5 (fbody src_main_EvaluationExample)) (mkMs eval_env [] h)).
Proof.
  cbv beta iota delta [src_main_EvaluationExample fbody skipn].
  st1. st1. erewrite plug_step; [|reflexivity]. reflexivity.
Qed.
Theorem C67_evaluation_text : forall o n, (80 <= n)%nat ->
  let p := run_main prog n "main.EvaluationExample" 2 o in
  match o_stat o the_path with
  | Some _ => fst p = Panic /\ printed (snd p) = o_out o
  | None =>
      match CombSat (env_steps o the_path) (CAtom eval_query true) (mkSolver "" 0) (BasicQContext eval_tree) with
      | (Ok b, sv, _) => fst p = Ok tt /\ printed (snd p) = (o_out o ++ (if b then "true" else "false") ++ newline)%string /\
          end_files (snd p) = files_after o (bs_calls sv)
      | (Err _, sv, _) => fst p = Panic /\ printed (snd p) = o_out o /\ end_files (snd p) = files_after o (bs_calls sv)
      | (Panic, _, _) => fst p = Panic
      | (Hang, _, _) => fst p = Hang
      end
  end.
Proof.
  intros o n Hn p.
  pose proof (C65_BinSolver the_path (BasicQContext eval_tree) o [] n ltac:(lia)) as BS.
  destruct (o_stat o the_path) as [er|] eqn:St.
  { unfold p. erewrite main_run; [|reflexivity|apply eval_start; lia|].
    2:{ cbn [mEnv mDefers mHeap app]. rewrite eval_lits. cbv beta iota delta [src_main_EvaluationExample fbody skipn eval_env].
        erewrite plug_step; [|eapply ex_assign2; [eapply ev_call; [evs|exact BS|reflexivity]|asg|asg]].
        st1. erewrite plug_panic; [|eapply ex_expr_panic; eapply ev_prim_is_panic; [evs|reflexivity]]. reflexivity. }
    cbn. auto. }
  pose proof (C65_Sat (CAtom eval_query true) the_path "" (BasicQContext eval_tree) o [] [] n ltac:(discriminate)
    (NoDup_nil _) ltac:(unfold comb_fuel; cbn; lia)) as X. cbv zeta in X.
  destruct (CombSat _ _ _ _) as [[r sv] c'].
  change (type_of (v_comb (CAtom eval_query true)) ++ ".Sat")%string with (GoLang.dot "compute.QDTFAtom" "Sat") in X.
  assert (EP : forall q, plug n [] (run_block (EX n) None (skipn 8 (fbody src_main_EvaluationExample))
      (mkMs [[("boolComb", v_comb (CAtom eval_query true)); ("err", VNil); ("solver", VPtr 2); ("qry", v_query eval_query); ("y", VStr "y");
              ("c", v_const (mkQConst "" eval_case)); ("ctx", VPtr 0); ("tree", v_model eval_tree)]]%string []
            [v_ctx (BasicQContext eval_tree); VSys o; v_solver the_path ""])) = q ->
     p = match q with
         | (Ok FNext, st') => (Ok tt, mHeap st')
         | (Ok _, st') => (stuck, mHeap st')
         | (Err e, st') => (Err e, mHeap st')
         | (Panic, st') => (Panic, mHeap st')
         | (Hang, st') => (Hang, mHeap st')
         end).
  { intros [r0 st'] Q. unfold p. erewrite main_run; [|reflexivity|apply eval_start; lia|].
    2:{ cbn [mEnv mDefers mHeap app]. rewrite eval_lits. cbv beta iota delta [src_main_EvaluationExample fbody skipn eval_env].
        erewrite plug_step; [|eapply ex_assign2; [eapply ev_call; [evs|exact BS|reflexivity]|asg|asg]].
        st1. st1. st1. st1. st1. erewrite plug_step; [|reflexivity]. exact Q. }
    now destruct r0 as [[]| | |]. }
  cbv beta iota delta [src_main_EvaluationExample fbody skipn] in EP.
  destruct (gocall n (GoLang.dot "compute.QDTFAtom" "Sat") _ _) as [r1 h1] eqn:G.
  set (st0 := mkMs _ _ _) in EP.
  assert (EM : EV n (XMeth (XVar "boolComb") "Sat" [XVar "ctx"; XVar "solver"]) st0
     = (match r1 with Ok l => Ok (one l) | Err e => Err e | Panic => Panic | Hang => Hang end, mkMs (mEnv st0) [] h1)).
  { eapply (ev_val_meth n); [apply ev_var; reflexivity|evs|vm_compute; reflexivity|exact G]. }
  destruct r as [b|e| |].
  - destruct X as (o' & h & L & [= -> ->]).
    assert (EQ : p = (Ok tt, v_ctx c' :: VSys (os_print o' ((if b then "true" else "false") ++ newline)) :: v_solver the_path (bs_output sv) :: h)).
    { eapply eq_trans; [apply EP; reflexivity|].
      erewrite plug_step; [|eapply ex_assign2; [exact EM|unfold st0; asg|asg]]. sts.
      erewrite plug_step; [|eapply ex_expr; eapply ev_sys; [evs|reflexivity]]. sts. reflexivity. }
    rewrite EQ. cbn [fst snd]. split; [reflexivity|]. split; [|exact (lt_files _ _ _ L)]. rewrite (later_out _ _ _ L). reflexivity.
  - destruct X as (o' & h & L & [= -> ->]).
    assert (EQ : p = (Panic, v_ctx c' :: VSys o' :: v_solver the_path (bs_output sv) :: h)).
    { eapply eq_trans; [apply EP; reflexivity|].
      erewrite plug_step; [|eapply ex_assign2; [exact EM|unfold st0; asg|asg]].
      st1. erewrite plug_panic; [|eapply ex_expr_panic; eapply ev_prim_is_panic; [evs|reflexivity]]. reflexivity. }
    rewrite EQ. cbn [fst snd]. split; [reflexivity|]. split; [|exact (lt_files _ _ _ L)]. rewrite (later_out _ _ _ L). reflexivity.
  - cbn [fst] in X. subst r1. erewrite EP; [|erewrite plug_panic; [|eapply ex_assign2_panic; exact EM]; reflexivity]. reflexivity.
  - cbn [fst] in X. subst r1. erewrite EP; [|erewrite plug_hang; [|eapply ex_assign2_hang; exact EM]; reflexivity]. reflexivity.
Qed.
Print Assumptions C67_evaluation_text.

(* A working solver: "true" is printed, and it is true. *)
Theorem C67_evaluation : forall o n, right_os o the_path -> new_names o -> (80 <= n)%nat ->
  let p := run_main prog n "main.EvaluationExample" 2 o in
  fst p = Ok tt /\ printed (snd p) = (o_out o ++ "true" ++ newline)%string /\ end_files (snd p) = o_files o /\ minimum_dfs 3 eval_shape eval_case.
Proof.
  intros o n R NN Hn p.
  assert (MD : minimum_dfs 3 eval_shape eval_case) by apply C43_case.
  destruct (C43_minimum_dfs (env_steps o the_path) eval_tree eval_shape eval_case (mkSolver "" 0) eval_is_dtree (small_valid eval_case eq_refl)
    ltac:(vm_compute; reflexivity) (right_files _ _ _ _ R) (right_correct _ _ _ _ R)) as (b & s' & c' & E & B & _).
  apply B in MD as Eb. subst b.
  pose proof (C67_evaluation_text o n Hn) as X. cbv zeta in X. fold p in X. unfold eval_query in X. rewrite (ro_stat _ _ R), E in X. destruct X as (X1 & X2 & X3).
  split; [exact X1|]. split; [exact X2|]. split; [|exact MD]. rewrite X3. now apply all_kept.
Qed.
Print Assumptions C67_evaluation.

(* ---- concrete cases ---- *)

Definition main_os (run : string -> run_result) (there ok : bool) : os :=
  mkOs [("/home/notes", "some text")] 0 0 (fun t => Some (append "/tmp/tmp.cnf" (itoa (Z.of_nat t)))) (fun _ => true) (fun _ _ => ok)
    (fun _ _ f => v_proc (run f)) (fun _ => if there then None else Some "no such file") "$ ".
Lemma main_right : right_os (main_os ideal_run true true) the_path.
Proof.
  split; try reflexivity; [discriminate|]. intros t file nv nc cls H1 H2 H3. cbn [main_os o_exec].
  destruct (ideal_correct 0%nat file nv nc cls H1 H2 H3) as [A B]. cbn [ideal e_run] in A, B. split.
  - intros C. destruct (A C) as (out & err & ls & r & E & D). exists out, err, ls, r. now rewrite E.
  - intros C. destruct (B C) as (out & err & E). exists out, err. now rewrite E.
Qed.
Lemma main_new : new_names (main_os ideal_run true true).
Proof. intros t p [= <-]. cbn. intros [E|[]]. discriminate. Qed.
Definition main_outcome (p : res unit * heap) := (fst p, printed (snd p), end_files (snd p)).
Definition main_case (f : string) (o : os) := main_outcome (run_main prog 80 f 2 o).
(* a solver that is right, one that always says no, none, and a full disk *)
Example C67_computation_case :
  let p := run_main prog 80 "main.ComputationExample" 2 (main_os ideal_run true true) in
  fst p = Ok tt /\ printed (snd p) = ("$ Value found: [0 _ _]" ++ newline)%string.
Proof.
  destruct (C67_computation (main_os ideal_run true true) 80 main_right main_new) as (A & B & _); [repeat constructor|].
  split; [exact A|exact B].
Qed.
Example C67_evaluation_case :
  let p := run_main prog 80 "main.EvaluationExample" 2 (main_os ideal_run true true) in
  fst p = Ok tt /\ printed (snd p) = ("$ true" ++ newline)%string.
Proof.
  destruct (C67_evaluation (main_os ideal_run true true) 80 main_right main_new) as (A & B & _); [repeat constructor|].
  split; [exact A|exact B].
Qed.
Definition says_no (f : string) : run_result := RunExit 20 "s UNSATISFIABLE" "".
Example C67_text_case :
  main_case "main.ComputationExample" (main_os ideal_run true true) = (Ok tt, ("$ Value found: [0 _ _]" ++ newline)%string, [("/home/notes", "some text")]) /\
  main_case "main.EvaluationExample" (main_os ideal_run true true) = (Ok tt, ("$ true" ++ newline)%string, [("/home/notes", "some text")]) /\
  main_case "main.ComputationExample" (main_os says_no true true) = (Ok tt, ("$ No value exists." ++ newline)%string, [("/home/notes", "some text")]) /\
  main_case "main.ComputationExample" (main_os ideal_run false true) = (Panic, "$ ", [("/home/notes", "some text")]) /\
  main_case "main.EvaluationExample" (main_os ideal_run false true) = (Panic, "$ ", [("/home/notes", "some text")]) /\
  main_case "main.ComputationExample" (main_os ideal_run true false) = (Panic, "$ ", [("/home/notes", "some text")]) /\
  main_case "main.EvaluationExample" (main_os ideal_run true false) = (Panic, "$ ", [("/home/notes", "some text")]).
Proof. vm_compute. repeat split; reflexivity. Qed.
