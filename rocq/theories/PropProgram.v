(* Properties C65 and C66: the text of the package compute computes what the model
   computes (C65), and so whole programs, as the text has them, answer their
   questions (C66).  The context is cell 0 of the heap, the operating system cell 1;
   the solver is wherever its pointer says. *)
From Verif Require Import GoBase GoLemmas Cnf CnfSem Query QueryLemmas Walk Atoms Logop Spec Sat Compute GoLang GoSource SrcBase SrcLemmas SrcCnf SrcQuery SrcCtx SrcLogop SrcValues SrcSolver SrcCompute
  Outcome Evolve Errors Form TreeLemmas Names Ground Meaning Master Truth FirstOrder Solver AtomCnf Dimacs Run Total Optim PropContext PropTruth PropCompute PropContext PropTruth PropRefuted PropShared PropOptim PropSize PropExamples PropText.
Local Open Scope string_scope.
Local Open Scope Z_scope.
Local Open Scope list_scope.

(* ---- the operating system as an environment of the model ---- *)

(* Step number k (from 0) runs at time t + k; ComputeOptim asks for one temporary
   file before its Steps. *)
Definition env_at (o : os) (path : string) (t : nat) (opt : bool) : Compute.env :=
  mkEnv (fun k => tmp_ok o (t + k)) (fun k => o_create o (S (t + k))) (fun k => o_write o (S (t + k)))
    (fun k f => run_of (o_exec o (S (t + k)) path f)) opt.
Definition env_steps (o : os) (path : string) : Compute.env := env_at o path (o_time o) true.
Definition env_optim (o : os) (path : string) : Compute.env := env_at o path (S (o_time o)) (tmp_ok o (o_time o)).
Lemma env_reads o path t b : reads (env_at o path t b) o path 0 t.
Proof. intros j. cbn. auto. Qed.

(* The files after m calls of os.CreateTemp: those named by the calls are gone,
   the others are as they were. *)
Definition gone (o : os) (m : nat) (f : string * string) : bool :=
  existsb (fun j => match o_tmp o (o_time o + j) with Some p => String.eqb (fst f) p | None => false end) (seq 0 m).
Definition files_after (o : os) (m : nat) : list (string * string) := filter (fun f => negb (gone o m f)) (o_files o).
Lemma afters_filter o : forall m t fs,
  afters o t m fs
  = filter (fun f => negb (existsb (fun j => match o_tmp o (t + j) with Some p => String.eqb (fst f) p | None => false end) (seq 0 m))) fs.
Proof.
  induction m as [|m IH]; intros t fs.
  - cbn. induction fs as [|x l E]; [reflexivity|]. cbn [filter]. now rewrite <- E at 1.
  - cbn [afters]. rewrite IH. unfold after.
    assert (S1 : forall (x : string * string), existsb (fun j => match o_tmp o (t + j) with Some p => String.eqb (fst x) p | None => false end) (seq 0 (S m))
       = (match o_tmp o t with Some p => String.eqb (fst x) p | None => false end
          || existsb (fun j => match o_tmp o (S t + j) with Some p => String.eqb (fst x) p | None => false end) (seq 0 m))%bool).
    { intros x. cbn [seq existsb]. rewrite Nat.add_0_r. f_equal. rewrite <- seq_shift. generalize (seq 0 m) as l.
      induction l as [|j l E]; [reflexivity|]. cbn [map existsb]. now rewrite E, Nat.add_succ_r. }
    assert (S2 : filter (fun f => negb (existsb (fun j => match o_tmp o (t + j) with Some p => String.eqb (fst f) p | None => false end) (seq 0 (S m)))) fs
       = filter (fun f => negb (match o_tmp o t with Some p => String.eqb (fst f) p | None => false end
          || existsb (fun j => match o_tmp o (S t + j) with Some p => String.eqb (fst f) p | None => false end) (seq 0 m))) fs).
    { apply filter_ext. intros a. now rewrite S1. }
    rewrite S2. clear S1 S2. destruct (o_tmp o t) as [p|]; [|reflexivity].
    unfold file_remove. induction fs as [|x l E]; [reflexivity|]. cbn [filter].
    destruct (String.eqb (fst x) p); cbn [negb orb]; [exact E|]. cbn [filter]. destruct (existsb _ _); cbn [negb]; [exact E|]. now rewrite E.
Qed.
Lemma osr_same o : osr o (o_time o) (o_files o) (o_writes o) = o.
Proof. now destruct o. Qed.

(* [o'] is [o] after m calls of os.CreateTemp, the files of which were removed. *)
Record later (o o' : os) (m : nat) : Prop := {
  lt_time : o_time o' = (o_time o + m)%nat;
  lt_files : o_files o' = files_after o m;
  lt_rest : o_tmp o' = o_tmp o /\ o_create o' = o_create o /\ o_write o' = o_write o /\ o_exec o' = o_exec o /\ o_stat o' = o_stat o /\ o_out o' = o_out o }.
Lemma osr_later o m w : later o (osr o (o_time o + m) (afters o (o_time o) m (o_files o)) w) m.
Proof. split; [reflexivity | cbn [osr o_files]; rewrite afters_filter; reflexivity | repeat split]. Qed.

(* ---- C65 ---- *)

(* cnf/cnf.go:211-243: the file holds the bytes, or an error is returned. *)
Theorem C65_ToFile : forall f path c g o n, (3 <= n)%nat ->
  exists o', o_time o' = o_time o /\ file_remove path (o_files o') = file_remove path (o_files o) /\
  match ToFile (o_create o (o_time o)) (o_write o (o_time o)) f with
  | Ok file => file_get path (o_files o') = file /\
      gocall n "cnf.CNF.ToFile" [v_cnf f; VStr path] (v_ctx c :: VSys o :: g) = (Ok [VNil], v_ctx c :: VSys o' :: g)
  | Err e => gocall n "cnf.CNF.ToFile" [v_cnf f; VStr path] (v_ctx c :: VSys o :: g) = (Ok [VErr e []], v_ctx c :: VSys o' :: g)
  | _ => False
  end.
Proof.
  intros f path [s vm M] g o n Hn.
  pose proof (go_ToFile n s M g vm o (o_time o) (o_files o) (o_writes o) f path Hn) as X. rewrite osr_same in X.
  destruct (ToFile _ _ f) as [file|e| |]; try elim X.
  - intros fs' (w' & X1 & X2 & X3). exists (osr o (o_time o) fs' w'). repeat split; auto.
  - intros fs' (w' & X1 & X2). exists (osr o (o_time o) fs' w'). repeat split; auto.
Qed.
Print Assumptions C65_ToFile.

(* compute/solver.go:120-201 *)
Theorem C65_Values : forall path out vars c g n, (Dim (cModel c) + 4 <= n)%nat ->
  gocall n "compute.binSolver.Values" [v_solver path out; VLst (map VStr vars); VPtr 0] (v_ctx c :: g)
  = match Values out vars c with
    | (Ok ks, c') => (Ok [v_solver path out; VLst (map v_const ks); VNil], v_ctx c' :: g)
    | (Err e, c') => (Ok [v_solver path out; VLst []; VErr e []], v_ctx c' :: g)
    | (Panic, c') => (Panic, v_ctx c' :: g)
    | (Hang, c') => (Hang, v_ctx c' :: g)
    end.
Proof.
  intros path out vars [s vm M] g n Hn. cbn [cModel] in Hn.
  rewrite (go_Values n s M g vm path out vars Hn : gocall n _ _ (v_ctx (mkCtx s vm M) :: g) = _).
  destruct (Values out vars (mkCtx s vm M)) as [r c'] eqn:E. pose proof (Values_ctx _ _ _ _ _ _ _ E) as ->. now destruct r.
Qed.
Print Assumptions C65_Values.

(* compute/solver.go:46-54 *)
Theorem C65_BinSolver : forall path c o g n, (1 <= n)%nat ->
  gocall n "compute.BinSolver" [VStr path] (v_ctx c :: VSys o :: g)
  = match o_stat o path with
    | Some e => (Ok [VNil; VErr e []], v_ctx c :: VSys o :: g)
    | None => (Ok [VPtr (2 + length g); VNil], v_ctx c :: VSys o :: g ++ [v_solver path ""])
    end.
Proof. intros path [s vm M] o g n Hn. exact (go_BinSolver n s M g vm o path Hn). Qed.
Print Assumptions C65_BinSolver.

(* compute/solver.go:56-118: one Step; [text_fuel] as in C63. *)
Theorem C65_Step : forall q path out c o g n,
  NoDup (map fst (svars (cScoper c))) -> (text_fuel q c < n)%nat ->
  let p := gocall n "compute.binSolver.Step" [v_solver path out; v_query q; VPtr 0] (v_ctx c :: VSys o :: g) in
  match Step (env_steps o path) q (mkSolver out 0) c with
  | (SPanic, _, _) => fst p = Panic
  | (SHang, _, _) => fst p = Hang
  | (r, sv, c') => exists o' k, later o o' 1 /\
      p = (Ok [v_solver path (bs_output sv);
               match r with
               | SUnsat => VErr "Formula is not satisfiable" ["compute.UnsatError"]
               | SErr e => VErr e []
               | _ => VNil
               end], v_ctx c' :: VSys o' :: g ++ k)
  end.
Proof.
  intros q path out [s vm M] o g n Hd Hn p. unfold text_fuel in Hn. cbn [cScoper cModel] in *.
  pose proof (go_Step n (levels s + length (scopes s) + qheight q)%nat q (env_steps o path) s vm M g o path out 0 (o_time o) (o_files o) (o_writes o)
    (env_reads _ _ _ _) ltac:(repeat split; [exact Hd | cbn [cScoper]; lia]) ltac:(lia) ltac:(unfold base_fuel; lia)) as X.
  rewrite osr_same in X. change (gocall n _ _ _) with p in X.
  destruct (Step _ q _ _) as [[r sv] c']. cbn [steps_as] in X.
  assert (Y : forall v, (exists w k, p = (Ok [v_solver path (bs_output sv); v], v_ctx c' :: VSys (osr o (S (o_time o)) (after o (o_time o) (o_files o)) w) :: g ++ k)) ->
     exists o' k, later o o' 1 /\ p = (Ok [v_solver path (bs_output sv); v], v_ctx c' :: VSys o' :: g ++ k)).
  { intros v (w & k & E). eexists _, k. split; [|exact E]. rewrite <- Nat.add_1_r. apply (osr_later o 1 w). }
  destruct r; try exact X; now apply Y.
Qed.
Print Assumptions C65_Step.

(* compute/boolcomb.go: Sat of a combinator, with the solver in the heap.  Elements of
   combinators may be nil. *)
Definition comb_fuel (k : comb) (c : ctx) : nat :=
  (levels (cScoper c) + length (scopes (cScoper c)) + Dim (cModel c) + 3 * length (Nodes (cModel c)) + 3 * cheight k + cdepth k + 10)%nat.
Theorem C65_Sat : forall k path out c o g1 g2 n, k <> CNil ->
  NoDup (map fst (svars (cScoper c))) -> (comb_fuel k c <= n)%nat ->
  let p := gocall n (type_of (v_comb k) ++ ".Sat") [v_comb k; VPtr 0; VPtr (2 + length g1)] (v_ctx c :: VSys o :: g1 ++ v_solver path out :: g2) in
  match CombSat (env_steps o path) k (mkSolver out 0) c with
  | (Panic, _, _) => fst p = Panic
  | (Hang, _, _) => fst p = Hang
  | (r, sv, c') => exists o' h, later o o' (bs_calls sv) /\
      p = (Ok (match r with Ok b => [VBool b; VNil] | Err e => [VBool false; VErr e []] | _ => [] end),
           v_ctx c' :: VSys o' :: g1 ++ v_solver path (bs_output sv) :: g2 ++ h)
  end.
Proof.
  intros k path out [s vm M] o g1 g2 n NN Hd Hn p. unfold comb_fuel in Hn. cbn [cScoper cModel] in *.
  pose proof (go_comb k (env_steps o path) (levels s + length (scopes s) + cheight k)%nat n s vm M g1 g2 o path out 0%nat (o_time o) (o_files o) (o_writes o)
    (env_reads _ _ _ _) ltac:(repeat split; [exact Hd | cbn [cScoper]; lia]) ltac:(lia) ltac:(unfold base_fuel; lia)) as X.
  rewrite osr_same, (go_sat_some _ _ _ _ NN) in X. change (gocall n (type_of (v_comb k) ++ ".Sat") _ _) with p in X.
  destruct (CombSat _ k _ _) as [[r sv] c']. cbn [sats_as] in X.
  destruct r as [b|e| |]; try exact X; destruct X as (h & -> & (m & w & k' & Y1 & Y2 & ->)); cbn [Nat.add] in Y1; rewrite Y1;
    (eexists _, k'; split; [apply (osr_later o m w) | reflexivity]).
Qed.
Print Assumptions C65_Sat.

(* compute/optimum.go:39-96.  The two bounds on nested calls are one: the turns of
   the loop count as well, so that a search of more than n turns is a Hang on both
   sides. *)
Theorem C65_ComputeOptim : forall fg og v H path out c o g1 g2 n,
  (qheight (fg v) <= H)%nat -> (forall k, (qheight (og v k) <= H)%nat) ->
  NoDup (map fst (svars (cScoper c))) ->
  (levels (cScoper c) + length (scopes (cScoper c)) + Dim (cModel c) + 3 * length (Nodes (cModel c)) + 3 * H + 15 <= n)%nat ->
  let p := gocall (S n) "compute.ComputeOptim" [v_fg fg; v_og og; VStr v; VPtr 0; VPtr (2 + length g1)]
             (v_ctx c :: VSys o :: g1 ++ v_solver path out :: g2) in
  match ComputeOptim n (env_optim o path) fg og v c (mkSolver out 0) with
  | (Panic, _, _) => fst p = Panic
  | (Hang, _, _) => fst p = Hang
  | (r, sv, c') => exists o' h, later o o' (S (bs_calls sv)) /\
      p = (Ok (match r with Ok x => [v_opt x; VNil] | Err e => [v_opt opt_zero; VErr e []] | _ => [] end),
           v_ctx c' :: VSys o' :: g1 ++ v_solver path (bs_output sv) :: g2 ++ h)
  end.
Proof.
  intros fg og v H path out [s vm M] o g1 g2 n Hf Ho Hd Hn p. cbn [cScoper cModel] in *.
  pose proof (go_ComputeOptim n (levels s + length (scopes s) + H + 2)%nat H (env_optim o path) s vm M g1 g2 o path out 0%nat (o_time o) (o_files o) (o_writes o) fg og v
    eq_refl (env_reads _ _ _ _) ltac:(repeat split; [exact Hd | cbn [cScoper]; lia]) Hf Ho ltac:(lia) ltac:(unfold base_fuel; lia)) as X.
  rewrite osr_same in X. change (gocall (S n) _ _ _) with p in X.
  destruct (ComputeOptim _ _ _ _ _ _ _) as [[r sv] c']. cbn [optim_as] in X.
  destruct r as [b|e| |]; try exact X; destruct X as (K & m & w & k' & Y1 & Y2 & ->); cbn [Nat.add] in Y1; rewrite Y1;
    (eexists _, k'; split; [apply (osr_later o (S m) w) | reflexivity]).
Qed.
Print Assumptions C65_ComputeOptim.

(* A search that ends within f turns ends so for every larger bound. *)
Lemma opt_loop_more E fg og v : forall f n s c steps, (f <= n)%nat ->
  fst (fst (opt_loop f E fg og v s c steps)) <> Hang -> opt_loop n E fg og v s c steps = opt_loop f E fg og v s c steps.
Proof.
  induction f as [|f IH]; intros n s c steps Hn H; [now elim H|]. destruct n as [|n]; [lia|]. cbn [opt_loop] in *.
  destruct (Values (bs_output s) [v] c) as [[[|bm ks]|e| |] c1]; try reflexivity.
  destruct (Step E _ s (CtxReset c1)) as [[[] s1] c2]; try reflexivity. apply IH; [lia | exact H].
Qed.
Lemma optim_more f n E fg og v c s : (f <= n)%nat ->
  fst (fst (ComputeOptim f E fg og v c s)) <> Hang -> ComputeOptim n E fg og v c s = ComputeOptim f E fg og v c s.
Proof.
  intros Hn. unfold ComputeOptim. destruct (negb _); [reflexivity|]. destruct (Step E _ s c) as [[[] s1] c1]; try reflexivity.
  now apply opt_loop_more.
Qed.
Theorem C65_optim_ends : forall fg og v H path out c o g1 g2 f n r sv c',
  ComputeOptim f (env_optim o path) fg og v c (mkSolver out 0) = (r, sv, c') -> r <> Hang -> (f <= n)%nat ->
  (qheight (fg v) <= H)%nat -> (forall k, (qheight (og v k) <= H)%nat) ->
  NoDup (map fst (svars (cScoper c))) ->
  (levels (cScoper c) + length (scopes (cScoper c)) + Dim (cModel c) + 3 * length (Nodes (cModel c)) + 3 * H + 15 <= n)%nat ->
  let p := gocall (S n) "compute.ComputeOptim" [v_fg fg; v_og og; VStr v; VPtr 0; VPtr (2 + length g1)]
             (v_ctx c :: VSys o :: g1 ++ v_solver path out :: g2) in
  let ends vs := exists o' h, later o o' (S (bs_calls sv)) /\
      p = (Ok vs, v_ctx c' :: VSys o' :: g1 ++ v_solver path (bs_output sv) :: g2 ++ h) in
  match r with
  | Ok x => ends [v_opt x; VNil]
  | Err e => ends [v_opt opt_zero; VErr e []]
  | _ => fst p = Panic
  end.
Proof.
  intros fg og v H path out c o g1 g2 f n r sv c' E Hr Hf Hfg Hog Hd Hn p.
  pose proof (C65_ComputeOptim fg og v H path out c o g1 g2 n Hfg Hog Hd Hn) as X. cbv zeta in X. fold p in X.
  rewrite (optim_more f n), E in X; [|exact Hf|rewrite E; exact Hr]. destruct r as [x|e| |]; try exact X. now elim Hr.
Qed.
Print Assumptions C65_optim_ends.

(* ---- C66 ---- *)

(* The solver at [path] is there and answers every DIMACS file correctly, and files
   can be created and written. *)
Record right_os (o : os) (path : string) : Prop := {
  ro_stat : o_stat o path = None;
  ro_tmp : forall t, o_tmp o t <> None;
  ro_create : forall t, o_create o t = true;
  ro_write : forall t i, o_write o t i = true;
  ro_exec : forall t file nv nc cls, read_dimacs file = Some (nv, nc, cls) -> 0 <= nv < 2 ^ 63 -> clauses_bound nv cls ->
    ((exists r, clauses_true r cls = true) ->
     exists out err ls r, o_exec o t path file = PExit 10 out err /\ prints out ls /\ gives nv ls r /\ clauses_true r cls = true) /\
    ((forall r, clauses_true r cls = false) -> exists out err, o_exec o t path file = PExit 20 out err) }.
Lemma right_files o path t b : right_os o path -> files_ok (env_at o path t b).
Proof.
  intros R k. cbn [env_at e_tmp e_create e_write]. unfold tmp_ok. pose proof (ro_tmp _ _ R (t + k)%nat). destruct (o_tmp o (t + k)); [|easy].
  split; [reflexivity|]. split; [apply R | intros i; apply R].
Qed.
Lemma right_correct o path t b : right_os o path -> correct_solver (env_at o path t b).
Proof.
  intros R k file nv nc cls H1 H2 H3. cbn [env_at e_run]. destruct (ro_exec _ _ R (S (t + k)) file nv nc cls H1 H2 H3) as [A B]. split.
  - intros C. destruct (A C) as (out & err & ls & r & -> & D). exists out, err, ls, r. now split.
  - intros C. destruct (B C) as (out & err & ->). now exists out, err.
Qed.
(* new names are new *)
Definition new_names (o : os) : Prop := forall t p, o_tmp o t = Some p -> ~ In p (map fst (o_files o)).
Lemma later_files o o' m : new_names o -> later o o' m -> o_files o' = o_files o.
Proof.
  intros N L. rewrite (lt_files _ _ _ L). unfold files_after.
  assert (A : forall f, In f (o_files o) -> gone o m f = false).
  { intros f Hf. unfold gone. apply not_true_is_false. intros X. apply existsb_exists in X as (j & _ & X).
    destruct (o_tmp o (o_time o + j)) as [p|] eqn:E; [|discriminate]. apply String.eqb_eq in X. subst p. apply (N _ _ E). now apply in_map. }
  revert A. generalize (o_files o) as l. induction l as [|f l IH]; intros A; [reflexivity|]. cbn [filter]. rewrite A by (now left). cbn [negb].
  f_equal. apply IH. intros x Hx. apply A. now right.
Qed.

(* ctx := query.BasicQContext(m); solver, err := compute.BinSolver(path) *)
Definition text_start (n : nat) (m : model) (o : os) (path : string) : res (list val) * heap :=
  match gocall n "query.BasicQContext" [v_model m] [] with
  | (Ok [VPtr 0], h) => gocall n "compute.BinSolver" [VStr path] (h ++ [VSys o])
  | (_, h) => (Panic, h)
  end.
(* and then combinator.Sat(ctx, solver) *)
Definition text_sat (n : nat) (m : model) (o : os) (path : string) (k : comb) : res (list val) * heap :=
  match text_start n m o path with
  | (Ok [s; VNil], h) => gocall n (type_of (v_comb k) ++ ".Sat") [v_comb k; VPtr 0; s] h
  | (_, h) => (Panic, h)
  end.
(* or compute.ComputeOptim(fg, og, v, ctx, solver) *)
Definition text_optim (n : nat) (m : model) (o : os) (path : string) (fg : QVar -> query) (og : QVar -> QConst -> query) (v : QVar)
  : res (list val) * heap :=
  match text_start n m o path with
  | (Ok [s; VNil], h) => gocall n "compute.ComputeOptim" [v_fg fg; v_og og; VStr v; VPtr 0; s] h
  | (_, h) => (Panic, h)
  end.
Lemma started n m o path : (1 <= n)%nat -> o_stat o path = None ->
  text_start n m o path = (Ok [VPtr 2; VNil], [v_ctx (BasicQContext m); VSys o; v_solver path ""]).
Proof.
  intros Hn St. unfold text_start. rewrite go_BasicQContext by exact Hn. cbn [length app].
  now rewrite (C65_BinSolver path (BasicQContext m) o [] n Hn), St.
Qed.
(* the files, once the program has ended *)
Definition end_files (h : heap) : list (string * string) := match find_sys 0 h with Some (_, o) => o_files o | None => [] end.

Theorem C66_sat : forall o path m t k N n, right_os o path -> new_names o -> (0 < Dim m)%nat ->
  Forall (fun q => (has_all q = true -> is_dtree m t) /\ wf_query m t q /\ tidy N (Dim m) q) (queries k) ->
  ForallOrdPairs (fun q q' => forall v, In v (all_vars q) -> ~ In v (all_vars q')) (queries k) ->
  (* variable numbers fit into an int *)
  (forall r s' c', CombSat (env_steps o path) k (mkSolver "" 0) (BasicQContext m) = (r, s', c') -> vm_topv (cVM c') < 2 ^ 63) ->
  (Dim m + 3 * length (Nodes m) + 3 * cheight k + cdepth k + 10 <= n)%nat ->
  exists b h, text_sat n m o path k = (Ok [VBool b; VNil], h) /\ (b = true <-> comb_true (Dim m) t k) /\ end_files h = o_files o.
Proof.
  intros o path m t k N n R NN Hd HF HP Fit Hn. unfold text_sat. rewrite started; [|lia|apply R].
  destruct (C47_combination (env_steps o path) m t k N (mkSolver "" 0) Hd (right_files _ _ _ _ R) (right_correct _ _ _ _ R) HF HP) as (r & s' & c' & E & B).
  destruct (B (Fit _ _ _ E)) as (b & -> & Bb).
  pose proof (C65_Sat k path "" (BasicQContext m) o [] [] n ltac:(intros ->; discriminate E) (NoDup_nil _) ltac:(unfold comb_fuel; cbn; lia)) as X. cbv zeta in X. rewrite E in X.
  destruct X as (o' & h & L & X). exists b. eexists. split; [exact X|]. split; [exact Bb|]. exact (later_files _ _ _ NN L).
Qed.
Print Assumptions C66_sat.

Theorem C66_optimum : forall o path m t N fg og v H n, right_os o path -> new_names o -> problem m t N fg og v ->
  (qheight (fg v) <= H)%nat -> (forall k, (qheight (og v k) <= H)%nat) ->
  let ok := satisfies (Dim m) t v (fg v) in
  let lt e' e := satisfies (Dim m) t v (og v (mkQConst "" e)) e' in
  (forall e, ok e -> ~ lt e e) -> (forall e1 e2 e3, ok e1 -> ok e2 -> ok e3 -> lt e1 e2 -> lt e2 e3 -> lt e1 e3) ->
  (3 ^ Dim m + Dim m + 3 * length (Nodes m) + 3 * H + 15 < n)%nat ->
  exists x h, text_optim n m o path fg og v = (Ok [v_opt x; VNil], h) /\ end_files h = o_files o /\
    if oFound x then ok (cVal (oValue x)) /\ forall e, ok e -> ~ lt e (cVal (oValue x)) else forall e, ~ ok e.
Proof.
  intros o path m t N fg og v H n R NN P Hf Ho ok lt IR TR Hn. destruct n as [|n]; [lia|].
  unfold text_optim. rewrite started; [|lia|apply R].
  assert (ET : e_opttmp (env_optim o path) = true).
  { cbn. unfold tmp_ok. pose proof (ro_tmp _ _ R (o_time o)). now destruct (o_tmp o (o_time o)). }
  pose proof (C65_ComputeOptim fg og v H path "" (BasicQContext m) o [] [] n Hf Ho (NoDup_nil _) ltac:(cbn; lia)) as X. cbv zeta in X.
  destruct (C28_whatever_order (env_optim o path) m t N fg og v n (mkSolver "" 0) P (right_files _ _ _ _ R) (right_correct _ _ _ _ R) ET)
    as (r & s' & c' & E & [(-> & e & He)|[(-> & He)|(e & -> & He)]]); rewrite E in X.
  - destruct (C28_optimal (env_optim o path) m t N fg og v n (mkSolver "" 0) P (right_files _ _ _ _ R) (right_correct _ _ _ _ R) ET
      (ex_intro _ e He) IR TR ltac:(lia)) as (e' & k & s2 & c2 & E2 & _). rewrite E in E2. discriminate.
  - destruct X as (o' & h & L & X). eexists _, _. split; [exact X|]. split; [exact (later_files _ _ _ NN L) | exact He].
  - destruct X as (o' & h & L & X). eexists _, _. split; [exact X|]. split; [exact (later_files _ _ _ NN L) | exact He].
Qed.
Print Assumptions C66_optimum.

(* The program of examples/computation.go. *)
Theorem C66_minimal_reason : forall o path m t c n, right_os o path -> new_names o -> is_dtree m t -> valid_inst (Dim m) c -> full (Dim m) c ->
  Z.of_nat (18 * unit_size (Dim m) (length (Nodes m))) < 2 ^ 63 -> (Dim m + 3 * length (Nodes m) + 35 <= n)%nat ->
  exists e k h, text_optim n m o path (sufficientReason (mkQConst "" c)) strictSubsumption "x" = (Ok [v_opt (mkOpt true (mkQConst "" e) k); VNil], h) /\
    minimal_reason (Dim m) t c e /\ k <= Z.of_nat (Dim m) + 2 /\ end_files h = o_files o.
Proof.
  intros o path m t c n R NN DT VC FC SZ Hn. destruct n as [|n]; [lia|].
  unfold text_optim. rewrite started; [|lia|apply R].
  assert (ET : e_opttmp (env_optim o path) = true).
  { cbn. unfold tmp_ok. pose proof (ro_tmp _ _ R (o_time o)). now destruct (o_tmp o (o_time o)). }
  destruct (C42_minimal_reason (env_optim o path) m t c n (mkSolver "" 0) DT VC FC SZ (right_files _ _ _ _ R) (right_correct _ _ _ _ R) ET ltac:(lia))
    as (e & k & s' & c' & E & M & _ & B).
  pose proof (C65_ComputeOptim (sufficientReason (mkQConst "" c)) strictSubsumption "x" 6 path "" (BasicQContext m) o [] [] n
    ltac:(cbn; lia) ltac:(intros; cbn; lia) (NoDup_nil _) ltac:(cbn; lia)) as X. cbv zeta in X. rewrite E in X.
  destruct X as (o' & h & L & X). exists e, k. eexists. split; [exact X|]. split; [exact M|]. split; [exact B|]. exact (later_files _ _ _ NN L).
Qed.
Print Assumptions C66_minimal_reason.

(* ---- concrete cases ---- *)

(* An operating system with a correct solver at "/bin/sat" and one file. *)
Definition v_proc (r : run_result) : proc_result :=
  match r with RunExit c out err => PExit c out err | RunFail e => PFail e end.
Definition sample_os : os :=
  mkOs [("/home/notes", "some text")] 0 0 (fun t => Some (append "/tmp/tmp.cnf" (itoa (Z.of_nat t)))) (fun _ => true) (fun _ _ => true)
    (fun _ p f => if String.eqb p "/bin/sat" then v_proc (ideal_run f) else PFail "no such file")
    (fun p => if String.eqb p "/bin/sat" then None else Some "no such file") "".
Lemma sample_right : right_os sample_os "/bin/sat".
Proof.
  split; try reflexivity; [discriminate|]. intros t file nv nc cls H1 H2 H3. cbn [sample_os o_exec].
  destruct (ideal_correct 0%nat file nv nc cls H1 H2 H3) as [A B]. cbn [ideal e_run] in A, B. split.
  - intros C. destruct (A C) as (out & err & ls & r & E & D). exists out, err, ls, r. cbn. now rewrite E.
  - intros C. destruct (B C) as (out & err & E). exists out, err. cbn. now rewrite E.
Qed.
Lemma sample_new : new_names sample_os.
Proof. intros t p [= <-]. cbn. intros [E|[]]. discriminate. Qed.

(* The text of a combination of three queries: run, and by the theorem. *)
Example C66_sat_case : exists h, text_sat 60 stump sample_os "/bin/sat" three = (Ok [VBool true; VNil], h) /\
  comb_true 2 stump_tree three /\ end_files h = [("/home/notes", "some text")].
Proof.
  assert (A : fst (text_sat 60 stump sample_os "/bin/sat" three) = Ok [VBool true; VNil]) by (vm_compute; reflexivity).
  destruct (C66_sat sample_os "/bin/sat" stump stump_tree three comp_naming 60 sample_right sample_new) as (b & h & R & T & F).
  - simpl; lia.
  - cbn [three queries flat_map app]. repeat (apply Forall_cons; [split; [intros _; exact stump_is_dtree|]|]); [| | |apply Forall_nil].
    + split; [apply fo_wf; exact both_fo|exact both_tidy].
    + split; [apply fo_wf; exact sample2_fo|exact sample2_tidy].
    + split; [apply fo_wf; exact third_fo|exact third_tidy].
  - cbn [three queries flat_map app]. repeat constructor; intros v; cbn; intuition congruence.
  - intros r s' c' R. assert (B : ran (env_steps sample_os "/bin/sat") three (mkSolver "" 0) (BasicQContext stump) = Some true) by (vm_compute; reflexivity).
    unfold ran in B. rewrite R in B. destruct r; try discriminate B. destruct (vm_topv (cVM c') <? 2 ^ 63) eqn:X; [lia|discriminate B].
  - cbn. lia.
  - exists h. rewrite R in A. injection A as ->. split; [exact R|]. split; [now apply T|exact F].
Qed.

(* examples/computation.go on its tree and instance. *)
Example C66_minimal_reason_case : exists h,
  text_optim 71 opt_tree sample_os "/bin/sat" (sufficientReason (mkQConst "" opt_case)) strictSubsumption "x"
  = (Ok [v_opt (mkOpt true (mkQConst "" [ZERO; BOT; BOT]) 4); VNil], h) /\
  minimal_reason 3 opt_shape opt_case [ZERO; BOT; BOT] /\ end_files h = [("/home/notes", "some text")].
Proof.
  assert (A : fst (text_optim 71 opt_tree sample_os "/bin/sat" (sufficientReason (mkQConst "" opt_case)) strictSubsumption "x")
    = Ok [v_opt (mkOpt true (mkQConst "" [ZERO; BOT; BOT]) 4); VNil]) by (vm_compute; reflexivity).
  destruct (C66_minimal_reason sample_os "/bin/sat" opt_tree opt_shape opt_case 71 sample_right sample_new opt_is_dtree opt_valid opt_full)
    as (e & k & h & R & M & _ & F); [vm_compute; reflexivity|cbn; lia|].
  exists h. rewrite R in A. cbn [fst] in A. assert (X : (e, k) = ([ZERO; BOT; BOT], 4)).
  { unfold v_opt, v_const in A. cbn in A. injection A as A1 A2. destruct e as [|a [|b [|d [|? ?]]]]; try discriminate A1. cbn in A1. injection A1 as <- <- <-. now subst. }
  injection X as -> ->. auto.
Qed.
Lemma satisfies_valid d t v q e : satisfies d t v q e -> valid_inst d e.
Proof. intros (E & V & <- & _). apply V. Qed.
Lemma sub_trans d e1 e2 e3 : subsumed d e1 e2 -> subsumed d e2 e3 -> subsumed d e1 e3.
Proof. intros A B i Hi. destruct (A i Hi) as [X|X]; [now left|]. destruct (B i Hi) as [Y|Y]; [left|right]; congruence. Qed.
Example C66_optimum_case : exists x h,
  text_optim 118 opt_tree sample_os "/bin/sat" (sufficientReason (mkQConst "" opt_case)) strictSubsumption "x" = (Ok [v_opt x; VNil], h) /\
  end_files h = o_files sample_os /\ oFound x = true.
Proof.
  destruct (C66_optimum sample_os "/bin/sat" opt_tree opt_shape ex_naming (sufficientReason (mkQConst "" opt_case)) strictSubsumption "x" 6 118
    sample_right sample_new opt_problem) as (x & h & R & F & X).
  - cbn; lia.
  - intros; cbn; lia.
  - intros e O L. apply order_satisfies in L; [|now apply satisfies_valid in O]. now apply L.
  - intros e1 e2 e3 O1 O2 O3 L1 L2. apply satisfies_valid in O1, O2. apply order_satisfies in L1; [|exact O1]. apply order_satisfies in L2; [|exact O2].
    apply order_satisfies; [exact O1|]. destruct L1 as [L1 N1], L2 as [L2 N2]. split; [exact (sub_trans _ _ _ _ L1 L2)|]. intros G. apply N2. exact (sub_trans _ _ _ _ G L1).
  - cbn; lia.
  - exists x, h. split; [exact R|]. split; [exact F|]. destruct (oFound x); [reflexivity|]. elim (X opt_case). apply reason_satisfies; [exact opt_valid|exact opt_full|exact opt_reason].
Qed.

(* One Step whose query has no answer: the file is written, read by the solver and
   removed, and the output of an earlier Step is kept. *)
Definition outcome (p : res (list val) * heap) : res (list val) * list (string * string) := (fst p, end_files (snd p)).
Example C65_Step_case :
  outcome (gocall 60 "compute.binSolver.Step" [v_solver "/bin/sat" "before"; v_query both; VPtr 0] [v_ctx (BasicQContext stump); VSys sample_os])
  = (Ok [v_solver "/bin/sat" "before"; VErr "Formula is not satisfiable" ["compute.UnsatError"]], [("/home/notes", "some text")]).
Proof. vm_compute. reflexivity. Qed.
(* A disk that is full after two lines, and a program that is no solver. *)
Definition full_disk : os :=
  mkOs [("/home/notes", "some text")] 0 0 (o_tmp sample_os) (fun _ => true) (fun _ i => (i <? 2)%nat) (o_exec sample_os) (o_stat sample_os) "".
Definition two_clauses : CNF := mkCNF 2 [[1; 2]; [-1]] [].
Example C65_ToFile_case :
  outcome (gocall 3 "cnf.CNF.ToFile" [v_cnf two_clauses; VStr "/home/f"] [v_ctx (BasicQContext stump); VSys sample_os])
  = (Ok [VNil], [("/home/f", append "p cnf 2 2" (String nl (append "1 2 0" (String nl (append "-1 0" (String nl "")))))); ("/home/notes", "some text")]) /\
  outcome (gocall 3 "cnf.CNF.ToFile" [v_cnf two_clauses; VStr "/home/f"] [v_ctx (BasicQContext stump); VSys full_disk])
  = (Ok [VErr "i/o error" []], [("/home/f", append "p cnf 2 2" (String nl (append "1 2 0" (String nl "")))); ("/home/notes", "some text")]).
Proof. vm_compute. split; reflexivity. Qed.
Example C65_Sat_case :
  outcome (text_sat 60 stump full_disk "/bin/sat" three) = (Ok [VBool false; VErr "i/o error" []], [("/home/notes", "some text")]) /\
  outcome (gocall 60 (type_of (v_comb (CAtom both true)) ++ ".Sat") [v_comb (CAtom both true); VPtr 0; VPtr 2] [v_ctx (BasicQContext stump); VSys sample_os; v_solver "/bin/ls" ""])
  = (Ok [VBool false; VErr "no such file" []], [("/home/notes", "some text")]).
Proof. vm_compute. split; reflexivity. Qed.
(* A nil element is only a panic if it is reached. *)
Example C65_nil_case :
  fst (text_sat 60 stump sample_os "/bin/sat" (CAnd [CAtom both true; CNil])) = Panic /\
  fst (text_sat 60 stump sample_os "/bin/sat" (COr [CAtom both true; CNil])) = Ok [VBool true; VNil].
Proof. vm_compute. split; reflexivity. Qed.
Example C65_ComputeOptim_case :
  outcome (text_optim 60 opt_tree full_disk "/bin/sat" (sufficientReason (mkQConst "" opt_case)) strictSubsumption "x")
  = (Ok [v_opt opt_zero; VErr "i/o error" []], [("/home/notes", "some text")]).
Proof. vm_compute. reflexivity. Qed.
Example C65_BinSolver_case :
  outcome (gocall 1 "compute.BinSolver" [VStr "/bin/gone"] [v_ctx (BasicQContext stump); VSys sample_os])
  = (Ok [VNil; VErr "no such file" []], [("/home/notes", "some text")]).
Proof. vm_compute. reflexivity. Qed.
Example C65_Values_case :
  outcome (gocall 6 "compute.binSolver.Values" [v_solver "/bin/sat" "v 1 -2 -3 -4 5 -6 0"; VLst [VStr "x"]; VPtr 0]
    [v_ctx (snd (enc both (BasicQContext stump))); VSys sample_os]) = (Ok [v_solver "/bin/sat" "v 1 -2 -3 -4 5 -6 0"; VLst [v_const (mkQConst "" [ZERO; ONE])]; VNil], [("/home/notes", "some text")]).
Proof. vm_compute. reflexivity. Qed.
