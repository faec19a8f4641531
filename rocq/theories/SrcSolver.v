(* Calling the solver, cnf/cnf.go:211-243 and compute/solver.go:46-118, against the model. *)
From Verif Require Import GoBase GoLemmas Cnf Query Walk Atoms Logop Compute GoLang GoSource SrcBase SrcLemmas SrcCnf SrcQuery SrcCtx SrcPred SrcNode SrcIter SrcLogop SrcValues.
Local Open Scope string_scope.
Local Open Scope Z_scope.
Local Open Scope list_scope.

(* ---- files ---- *)

Lemma file_get_set p c l : file_get p (file_set p c l) = c.
Proof. unfold file_set. cbn [file_get]. now rewrite String.eqb_refl. Qed.
Lemma file_remove_set p c l : file_remove p (file_set p c l) = file_remove p l.
Proof.
  unfold file_set, file_remove. cbn [filter fst]. rewrite String.eqb_refl. cbn [negb].
  induction l as [|x l IH]; [reflexivity|]. cbn [filter]. destruct (String.eqb (fst x) p) eqn:E; cbn [negb]; [exact IH|].
  cbn [filter]. rewrite E. cbn [negb]. now rewrite IH.
Qed.
Lemma file_remove_idem p l : file_remove p (file_remove p l) = file_remove p l.
Proof.
  unfold file_remove. induction l as [|x l IH]; [reflexivity|]. cbn [filter]. destruct (String.eqb (fst x) p) eqn:E; cbn [negb]; [exact IH|].
  cbn [filter]. rewrite E. cbn [negb]. now rewrite IH.
Qed.

(* ---- the operating system o after some calls ---- *)

Definition osr (o : os) (t : nat) (fs : list (string * string)) (w : nat) : os :=
  mkOs fs t w (o_tmp o) (o_create o) (o_write o) (o_exec o) (o_stat o) (o_out o).

Section Sys.
  Variables (n : nat) (s : scoper) (M : model) (g : heap) (vm : varman) (o : os) (t : nat).
  Variables (env : list frame) (d : list (list stmt)).
  Lemma ev_CreateTemp fs w p :
    o_tmp o t = Some p ->
    EV n (XSys "os.CreateTemp" [XStr ""; XStr "tmp.cnf"]) (mkMs env d (hc s M (VSys (osr o t fs w) :: g) vm))
    = (Ok (VTup [v_file p; VNil]), mkMs env d (hc s M (VSys (osr o (S t) (file_set p "" fs) w) :: g) vm)).
  Proof.
    intros H. cbn [eval x_map]. unfold xbind, xret, with_sys. cbn [mHeap find_sys hc v_ctx mEnv mDefers].
    unfold sys. cbn [name_eqb]. cbn [osr o_time o_tmp]. rewrite H. reflexivity.
  Qed.
  Lemma ev_CreateTemp_fails fs w :
    o_tmp o t = None ->
    EV n (XSys "os.CreateTemp" [XStr ""; XStr "tmp.cnf"]) (mkMs env d (hc s M (VSys (osr o t fs w) :: g) vm))
    = (Ok (VTup [VNil; VErr tmp_err []]), mkMs env d (hc s M (VSys (osr o (S t) fs w) :: g) vm)).
  Proof.
    intros H. cbn [eval x_map]. unfold xbind, xret, with_sys. cbn [mHeap find_sys hc v_ctx mEnv mDefers].
    unfold sys. cbn [name_eqb]. cbn [osr o_time o_tmp]. rewrite H. reflexivity.
  Qed.
  Lemma ev_Create e fs w p :
    EV n e (mkMs env d (hc s M (VSys (osr o t fs w) :: g) vm)) = (Ok (VStr p), mkMs env d (hc s M (VSys (osr o t fs w) :: g) vm)) ->
    o_create o t = true ->
    EV n (XSys "os.Create" [e]) (mkMs env d (hc s M (VSys (osr o t fs w) :: g) vm))
    = (Ok (VTup [v_file p; VNil]), mkMs env d (hc s M (VSys (osr o t (file_set p "" fs) 0) :: g) vm)).
  Proof.
    intros E H. cbn [eval x_map]. unfold xbind. rewrite E. unfold xret, with_sys. cbn [mHeap find_sys hc v_ctx mEnv mDefers].
    unfold sys. cbn [name_eqb]. cbn [osr o_time o_create]. rewrite H. reflexivity.
  Qed.
  Lemma ev_Create_fails e fs w p :
    EV n e (mkMs env d (hc s M (VSys (osr o t fs w) :: g) vm)) = (Ok (VStr p), mkMs env d (hc s M (VSys (osr o t fs w) :: g) vm)) ->
    o_create o t = false ->
    EV n (XSys "os.Create" [e]) (mkMs env d (hc s M (VSys (osr o t fs w) :: g) vm))
    = (Ok (VTup [VNil; VErr io_error []]), mkMs env d (hc s M (VSys (osr o t fs w) :: g) vm)).
  Proof.
    intros E H. cbn [eval x_map]. unfold xbind. rewrite E. unfold xret, with_sys. cbn [mHeap find_sys hc v_ctx mEnv mDefers].
    unfold sys. cbn [name_eqb]. cbn [osr o_time o_create]. rewrite H. reflexivity.
  Qed.
  Lemma ev_Remove e fs w p :
    EV n e (mkMs env d (hc s M (VSys (osr o t fs w) :: g) vm)) = (Ok (VStr p), mkMs env d (hc s M (VSys (osr o t fs w) :: g) vm)) ->
    EV n (XSys "os.Remove" [e]) (mkMs env d (hc s M (VSys (osr o t fs w) :: g) vm))
    = (Ok VNil, mkMs env d (hc s M (VSys (osr o t (file_remove p fs) w) :: g) vm)).
  Proof. intros E. cbn [eval x_map]. unfold xbind. rewrite E. reflexivity. Qed.
  Lemma xm_Write x fs w p str :
    o_write o t w = true ->
    XM n (XVar x) "WriteString" (v_file p) [VStr str] (mkMs env d (hc s M (VSys (osr o t fs w) :: g) vm))
    = (Ok (VTup [VInt (Z.of_nat (String.length str)); VNil]),
       mkMs env d (hc s M (VSys (osr o t (file_set p (file_get p fs ++ str) fs) (S w)) :: g) vm)).
  Proof.
    intros H. unfold x_method, v_file, method, own_method.
    change (kind_of prog (dot "os.File" "WriteString")) with (@None bool). cbn [prim_meth name_eqb sys_meth].
    unfold xbind, xret, with_sys. cbn [mHeap find_sys hc v_ctx mEnv mDefers]. unfold sys_write. cbn [osr o_time o_writes o_write].
    rewrite H. reflexivity.
  Qed.
  Lemma xm_Write_fails x fs w p str :
    o_write o t w = false ->
    XM n (XVar x) "WriteString" (v_file p) [VStr str] (mkMs env d (hc s M (VSys (osr o t fs w) :: g) vm))
    = (Ok (VTup [VInt 0; VErr io_error []]), mkMs env d (hc s M (VSys (osr o t fs (S w)) :: g) vm)).
  Proof.
    intros H. unfold x_method, v_file, method, own_method.
    change (kind_of prog (dot "os.File" "WriteString")) with (@None bool). cbn [prim_meth name_eqb sys_meth].
    unfold xbind, xret, with_sys. cbn [mHeap find_sys hc v_ctx mEnv mDefers]. unfold sys_write. cbn [osr o_time o_writes o_write].
    rewrite H. reflexivity.
  Qed.
End Sys.
Lemma fin_ret_defer n fn env h b fl f env' d' h' vs :
  fresults fn = [] -> fptr fn = false ->
  run_block (EX n) None b (push [] (mkMs env [b] h)) = (Ok fl, mkMs (f :: env') d' h') ->
  fin n fn (plug n [] (Ok (FRet (Some vs)), mkMs env [b] h)) = (Ok vs, h').
Proof.
  intros H1 H2 H4. cbn [plug fin]. unfold finish. rewrite H1, H2.
  unfold xbind, xret. cbn [mDefers run_defers]. unfold xbind, x_scope.
  fold (push [] (mkMs env [b] h)). now rewrite H4.
Qed.
Ltac ret_defer := erewrite fin_ret_defer; [|reflexivity|reflexivity|blk].

(* ---- cnf/cnf.go:211-243 ---- *)

Definition fstate : Type := list (string * string) * nat * val.
Definition write_turn (o : os) (t : nat) (p : string) (cl : clause) (x : fstate) : fstate + res flow * fstate :=
  let '(fs, w, _) := x in
  if o_write o t w then inl (file_set p (file_get p fs ++ clauseToDIMACS cl ++ newline) fs, S w, VNil)
  else inr (Ok (FRet (Some [VErr io_error []])), (fs, S w, VErr io_error [])).
Definition write_end (p : string) (fs0 : list (string * string)) (r : (nat * string) + unit) (x : fstate + res flow * fstate) : Prop :=
  match r with
  | inl (k, f) => exists fs, x = inl (fs, k, VNil) /\ file_get p fs = f /\ file_remove p fs = file_remove p fs0
  | inr _ => exists fs w, x = inr (Ok (FRet (Some [VErr io_error []])), (fs, w, VErr io_error [])) /\ file_remove p fs = file_remove p fs0
  end.
Lemma write_same o t p fs0 : forall cls f w fs,
  file_get p fs = f -> file_remove p fs = file_remove p fs0 ->
  write_end p fs0 (write_clauses (o_write o t) w f cls) (rstop (write_turn o t p) cls (fs, w, VNil)).
Proof.
  induction cls as [|cl cls IH]; intros f w fs Hf Hr; cbn [write_clauses rstop].
  - now exists fs.
  - unfold write_turn at 1. destruct (o_write o t w).
    + apply IH; [rewrite file_get_set; now rewrite Hf | now rewrite file_remove_set].
    + now exists fs, (S w).
Qed.
Lemma write_stops o t p : forall cls x y,
  rstop (write_turn o t p) cls x = inr y ->
  exists fs w, y = (Ok (FRet (Some [VErr io_error []])), (fs, w, VErr io_error [])).
Proof.
  induction cls as [|cl cls IH]; intros x y; cbn [rstop]; [discriminate|]. destruct x as [[fs w] v]. unfold write_turn at 1.
  destruct (o_write o t w); [apply IH|]. intros [= <-]. now exists fs, (S w).
Qed.

Lemma go_ToFile n s M g vm o t fs w f path :
  (3 <= n)%nat ->
  match ToFile (o_create o t) (o_write o t) f with
  | Ok file => exists fs' w', file_get path fs' = file /\ file_remove path fs' = file_remove path fs /\
      gocall n "cnf.CNF.ToFile" [v_cnf f; VStr path] (hc s M (VSys (osr o t fs w) :: g) vm)
      = (Ok [VNil], hc s M (VSys (osr o t fs' w') :: g) vm)
  | Err e => exists fs' w', file_remove path fs' = file_remove path fs /\
      gocall n "cnf.CNF.ToFile" [v_cnf f; VStr path] (hc s M (VSys (osr o t fs w) :: g) vm)
      = (Ok [VErr e []], hc s M (VSys (osr o t fs' w') :: g) vm)
  | _ => False
  end.
Proof.
  intros Hn. destruct n as [|n]; [lia|]. unfold ToFile.
  destruct (o_create o t) eqn:Hc.
  2:{ exists fs, w. split; [reflexivity|]. func_at src_cnf_CNF_ToFile.
      erewrite plug_step; [|eapply ex_assign2; [eapply ev_Create_fails; [ev | exact Hc] | asg | asg]].
      sts. reflexivity. }
  destruct (o_write o t 0) eqn:Hw.
  2:{ exists (file_set path "" fs), 1%nat. split; [apply file_remove_set|]. func_at src_cnf_CNF_ToFile.
      erewrite plug_step; [|eapply ex_assign2; [eapply ev_Create; [ev | exact Hc] | asg | asg]].
      stp. rewrite plug_defer. 
      erewrite plug_if; [|eapply blk_step; [eapply ex_assign2; [eapply ev_meth; [ev | evs | eapply xm_Write_fails; exact Hw] | asg | asg]|apply blk_nil]|ev]; red_cond.
      sts. ret_defer. reflexivity. }
  pose proof (write_same o t path fs (sClauses f) (dimacs_header f) 1 (file_set path (dimacs_header f) (file_set path "" fs))
                (file_get_set _ _ _) ltac:(now rewrite !file_remove_set)) as L1.
  cut (write_end path fs
    (match write_clauses (o_write o t) 1 (dimacs_header f) (sClauses f) with
     | inl (k, b) => write_clauses (o_write o t) k b (cClauses f)
     | inr x => inr x
     end)
    (match rstop (write_turn o t path) (sClauses f) (file_set path (dimacs_header f) (file_set path "" fs), 1%nat, VNil) with
     | inl x => rstop (write_turn o t path) (cClauses f) x
     | inr p => inr p
     end)).
  2:{ destruct (write_clauses (o_write o t) 1 (dimacs_header f) (sClauses f)) as [[k b]|[]]; cbn [write_end] in L1.
      - destruct L1 as (fs1 & -> & Hg & Hr). now apply write_same.
      - destruct L1 as (fs1 & w1 & -> & Hr). now exists fs1, w1. }
  clear L1. intros L.
  assert (G : gocall (S n) "cnf.CNF.ToFile" [v_cnf f; VStr path] (hc s M (VSys (osr o t fs w) :: g) vm)
    = match
        (match rstop (write_turn o t path) (sClauses f) (file_set path (dimacs_header f) (file_set path "" fs), 1%nat, VNil) with
         | inl x => rstop (write_turn o t path) (cClauses f) x
         | inr p => inr p
         end) with
      | inl (fs, w, _) => (Ok [VNil], hc s M (VSys (osr o t fs w) :: g) vm)
      | inr (_, (fs, w, v)) => (Ok [v], hc s M (VSys (osr o t fs w) :: g) vm)
      end).
  { func_at src_cnf_CNF_ToFile.
    erewrite plug_step; [|eapply ex_assign2; [eapply ev_Create; [ev | exact Hc] | asg | asg]].
    stp. rewrite plug_defer.
    erewrite plug_if; [|eapply blk_step; [eapply ex_assign2; [eapply ev_meth; [ev | evs | eapply xm_Write; exact Hw] | asg | asg]|apply blk_nil]|ev]; red_cond.
    stp.
    match goal with |- context [file_set path (file_get _ _ ++ ?x) _] => change x with (dimacs_header f) end.
    rewrite file_get_set. change ("" ++ dimacs_header f)%string with (dimacs_header f).
    range_stop (fun x : fstate => [("err"%string, snd x)]) (fun x : fstate => hc s M (VSys (osr o t (fst (fst x)) (snd (fst x))) :: g) vm)
      (write_turn o t path) from (file_set path (dimacs_header f) (file_set path "" fs), 1%nat, VNil).
    - destruct (rstop (write_turn o t path) (sClauses f) _) as [[[fs1 w1] v1]|y] eqn:E1.
      2:{ destruct (write_stops _ _ _ _ _ _ E1) as (fs1 & w1 & ->). cbn [fst snd]. sts. ret_defer. reflexivity. }
      cbn [fst snd]. rewrite plug_seq_next.
      range_stop (fun x : fstate => [("err"%string, snd x)]) (fun x : fstate => hc s M (VSys (osr o t (fst (fst x)) (snd (fst x))) :: g) vm)
        (write_turn o t path) from (fs1, w1, v1).
      * destruct (rstop (write_turn o t path) (cClauses f) _) as [[[fs2 w2] v2]|y] eqn:E2.
        2:{ destruct (write_stops _ _ _ _ _ _ E2) as (fs2 & w2 & ->). cbn [fst snd]. sts. ret_defer. reflexivity. }
        cbn [fst snd]. sts. ret_defer. reflexivity.
      * destruct s0 as [[fs3 w3] v3]. cbn [fst snd]. unfold write_turn. destruct (o_write o t w3) eqn:Hw3; cbn [fst snd].
        + erewrite plug_if; [|eapply blk_step; [eapply ex_assign2; [eapply ev_meth; [ev | evs | eapply xm_Write; exact Hw3] | asg | asg]|apply blk_nil]|ev]; red_cond.
          sts. endbody.
        + split; [|exact Logic.I].
          erewrite plug_if; [|eapply blk_step; [eapply ex_assign2; [eapply ev_meth; [ev | evs | eapply xm_Write_fails; exact Hw3] | asg | asg]|apply blk_nil]|ev]; red_cond.
          sts. reflexivity.
    - destruct s0 as [[fs1 w1] v1]. cbn [fst snd]. unfold write_turn. destruct (o_write o t w1) eqn:Hw1; cbn [fst snd].
      + erewrite plug_if; [|eapply blk_step; [eapply ex_assign2; [eapply ev_meth; [ev | evs | eapply xm_Write; exact Hw1] | asg | asg]|apply blk_nil]|ev]; red_cond.
        sts. endbody.
      + split; [|exact Logic.I].
        erewrite plug_if; [|eapply blk_step; [eapply ex_assign2; [eapply ev_meth; [ev | evs | eapply xm_Write_fails; exact Hw1] | asg | asg]|apply blk_nil]|ev]; red_cond.
        sts. reflexivity. }
  rewrite G.
  destruct (write_clauses (o_write o t) 1 (dimacs_header f) (sClauses f)) as [[k b]|[]]; cbn [write_end] in L.
  - destruct (write_clauses (o_write o t) k b (cClauses f)) as [[k' b']|[]]; cbn [write_end] in L.
    + destruct L as (fs1 & -> & Hg & Hr). now exists fs1, k'.
    + destruct L as (fs1 & w1 & -> & Hr). now exists fs1, w1.
  - destruct L as (fs1 & w1 & -> & Hr). now exists fs1, w1.
Qed.

(* ---- compute/solver.go:94-118 ---- *)

Definition v_buf (b : string) : val := VStc "bytes.Buffer" [("buf", VStr b)].
Definition v_cmd (path arg : string) (out err : val) : val :=
  VStc "exec.Cmd" [("Path", VStr path); ("Arg", VStr arg); ("Stdout", out); ("Stderr", err)].
Section Run.
  Variables (n : nat) (s : scoper) (M : model) (vm : varman) (o : os).
  Variables (env : list frame) (d : list (list stmt)).
  Lemma ev_new_hs e g v :
    EV n e (mkMs env d (hc s M (VSys o :: g) vm)) = (Ok v, mkMs env d (hc s M (VSys o :: g) vm)) ->
    EV n (XNew e) (mkMs env d (hc s M (VSys o :: g) vm))
    = (Ok (VPtr (S (S (length g)))), mkMs env d (hc s M (VSys o :: g ++ [v]) vm)).
  Proof. intros H. exact (ev_new n e _ v env d _ H). Qed.
  Lemma ev_deref_hs e g x k :
    EV n e (mkMs env d (hc s M (VSys o :: g ++ x :: k) vm)) = (Ok (VPtr (S (S (length g)))), mkMs env d (hc s M (VSys o :: g ++ x :: k) vm)) ->
    EV n (XDeref e) (mkMs env d (hc s M (VSys o :: g ++ x :: k) vm)) = (Ok x, mkMs env d (hc s M (VSys o :: g ++ x :: k) vm)).
  Proof. intros H. exact (ev_deref n e _ (v_ctx (mkCtx s vm M) :: VSys o :: g) x k env d H). Qed.
  Lemma ev_deref_hs2 e g y x k :
    EV n e (mkMs env d (hc s M (VSys o :: g ++ y :: x :: k) vm)) = (Ok (VPtr (S (S (S (length g))))), mkMs env d (hc s M (VSys o :: g ++ y :: x :: k) vm)) ->
    EV n (XDeref e) (mkMs env d (hc s M (VSys o :: g ++ y :: x :: k) vm)) = (Ok x, mkMs env d (hc s M (VSys o :: g ++ y :: x :: k) vm)).
  Proof.
    change (g ++ y :: x :: k) with (g ++ [y] ++ x :: k). rewrite app_assoc. intros H. apply ev_deref_hs. rewrite H.
    rewrite app_length. cbn [length]. now rewrite Nat.add_1_r.
  Qed.
  Lemma ev_is e x st st1 v w : EV n e st = (Ok v, st1) -> v_is v x = w -> EV n (XIs e x) st = (Ok w, st1).
  Proof. intros H <-. cbn [eval]. unfold xbind. now rewrite H. Qed.
  Lemma xm_Run x path arg g :
    XM n (XVar x) "Run" (v_cmd path arg (VPtr (S (S (S (length g))))) (VPtr (S (S (length g))))) []
      (mkMs env d (hc s M (VSys o :: g ++ [v_buf ""; v_buf ""]) vm))
    = (Ok (fst (fst (sys_run path arg o))),
       mkMs env d (hc s M (VSys o :: g ++ [v_buf (snd (sys_run path arg o)); v_buf (snd (fst (sys_run path arg o)))]) vm)).
  Proof.
    unfold x_method, v_cmd, method, own_method.
    change (kind_of prog (dot "exec.Cmd" "Run")) with (@None bool). cbn [prim_meth name_eqb sys_meth].
    unfold xbind, xret, with_sys. cbn [mHeap find_sys hc v_ctx mEnv mDefers fst snd]. destruct (sys_run path arg o) as [[r out] err].
    cbn [fst snd]. unfold x_output, xbind, xret, x_load, x_store. cbn [mHeap mEnv mDefers].
    set (h := [v_ctx (mkCtx s vm M); VSys o]).
    assert (A : forall k, heap_set (hc s M (VSys o :: k) vm) 1 (VSys o) = (h ++ k)%list) by reflexivity.
    rewrite A. clear A.
    assert (L1 : S (S (S (length g))) = length (h ++ g ++ [v_buf ""])) by (unfold h; cbn [length app]; rewrite app_length; cbn; lia).
    assert (L2 : S (S (length g)) = length (h ++ g)) by (unfold h; reflexivity).
    rewrite L1, L2.
    replace (h ++ g ++ [v_buf ""; v_buf ""]) with ((h ++ g ++ [v_buf ""]) ++ v_buf "" :: []) by (rewrite <- !app_assoc; reflexivity).
    rewrite heap_at. cbv beta iota delta [v_buf]. fold (v_buf ""). cbn [mHeap mEnv mDefers]. rewrite heap_put.
    replace ((h ++ g ++ [v_buf ""]) ++ [VStc "bytes.Buffer" [("buf"%string, VStr ("" ++ out)%string)]])
      with ((h ++ g) ++ v_buf "" :: [v_buf out]) by (rewrite <- !app_assoc; reflexivity).
    rewrite heap_at. cbv beta iota delta [v_buf]. fold (v_buf out). cbn [mHeap mEnv mDefers]. rewrite heap_put. cbn [fst snd one]. rewrite <- app_assoc. reflexivity.
  Qed.
End Run.
Ltac ev_hook e ::=
  lazymatch e with
  | XStc "cnf.CNF" [("tv"%string, XInt 0); ("sClauses"%string, XLst []); ("cClauses"%string, XLst [])] => apply ev_true
  | XNew _ => eapply ev_new_hs; ev
  | XDeref _ => first [eapply ev_deref_hs; ev | eapply ev_deref_hs2; ev]
  | XIs _ _ => eapply ev_is; [ev | cbv beta iota delta [v_is name_eqb]; reflexivity]
  end.

(* what exec.Cmd.Run ends in *)
Definition run_of (r : proc_result) : run_result :=
  match r with PExit c out err => RunExit c out err | PFail e => RunFail e end.
Definition solver_result (r : res (Z * string)) (z : Z) : list val :=
  match r with
  | Ok (code, out) => [VInt code; VStr out; VNil]
  | Err e => [VInt z; VStr ""; VErr e []]
  | _ => []
  end.
Lemma go_runSolver n s M g vm o path arg :
  (2 <= n)%nat ->
  exists z k, gocall n "compute.runSolver" [v_cmd path arg VNil VNil] (hc s M (VSys o :: g) vm)
    = (Ok (solver_result (runSolver (run_of (o_exec o (o_time o) path (file_get arg (o_files o))))) z), hc s M (VSys o :: g ++ k) vm).
Proof.
  intros Hn. destruct n as [|n]; [lia|].
  func_at src_compute_runSolver.
  stp. rewrite app_length, <- app_assoc. cbn [length]. rewrite Nat.add_1_r. cbn [app]. fold (v_buf "").
  unfold v_cmd. stp. stp.
  erewrite plug_step; [|eapply ex_assign; [eapply ev_meth; [ev | evs | apply xm_Run] | asg]].
  unfold sys_run. destruct (o_exec o (o_time o) path (file_get arg (o_files o))) as [code out err|e]; cbn [run_of runSolver fst snd].
  - destruct (code =? 0).
    { exists 0, [v_buf err; v_buf out]. sts. reflexivity. }
    destruct (code =? 10) eqn:E10; [|destruct (code =? 20) eqn:E20]; cbn [negb andb].
    + exists 0, [v_buf err; v_buf out]. stp. stp. stp. rewrite E10. cbn [negb]. sts. reflexivity.
    + exists 0, [v_buf err; v_buf out]. stp. stp. stp. rewrite E10, E20. cbn [negb]. sts. reflexivity.
    + exists code, [v_buf err; v_buf out]. stp. stp. stp. rewrite E10, E20. cbn [negb]. sts. reflexivity.
  - exists 0, [v_buf ""; v_buf ""]. sts. reflexivity.
Qed.

(* ---- compute/solver.go:56-92 ---- *)

(* the environment E of the model, from Step number k on, is o from time t on *)
Definition tmp_ok (o : os) (t : nat) : bool := match o_tmp o t with Some _ => true | None => false end.
Definition reads (E : env) (o : os) (path : string) (k t : nat) : Prop :=
  forall j, e_tmp E (k + j) = tmp_ok o (t + j)
    /\ e_create E (k + j) = o_create o (S (t + j))
    /\ (forall i, e_write E (k + j) i = o_write o (S (t + j)) i)
    /\ (forall f, e_run E (k + j) f = run_of (o_exec o (S (t + j)) path f)).
Lemma reads_next E o path k t : reads E o path k t -> reads E o path (S k) (S t).
Proof.
  intros H j. specialize (H (S j)). rewrite !Nat.add_succ_r in H. exact H.
Qed.
Lemma write_clauses_ext a b : (forall i, a i = b i) -> forall cls k f, write_clauses a k f cls = write_clauses b k f cls.
Proof. intros H. induction cls as [|cl cls IH]; intros k f; cbn [write_clauses]; [reflexivity|]. now rewrite (H k), IH. Qed.
Lemma ToFile_ext a b c f : (forall i, a i = b i) -> ToFile c a f = ToFile c b f.
Proof.
  intros H. unfold ToFile. rewrite (H 0%nat), (write_clauses_ext a b H). destruct c; [|reflexivity]. destruct (b 0%nat); [|reflexivity].
  destruct (write_clauses b 1 (dimacs_header f) (sClauses f)) as [[k c]|]; [|reflexivity]. now rewrite (write_clauses_ext a b H).
Qed.

(* the error Step returns *)
Definition v_sres (r : sres) : val :=
  match r with
  | SUnsat => VErr "Formula is not satisfiable" ["compute.UnsatError"]
  | SErr e => VErr e []
  | _ => VNil
  end.
(* the files afterwards *)
Definition after (o : os) (t : nat) (fs : list (string * string)) : list (string * string) :=
  match o_tmp o t with Some p => file_remove p fs | None => fs end.
Definition steps_as (path : string) (o : os) (t : nat) (fs : list (string * string)) (g : heap)
    (p : res (list val) * heap) (x : sres * solver * ctx) : Prop :=
  let '(r, sv, c) := x in
  match r with
  | SPanic => fst p = Panic
  | SHang => fst p = Hang
  | _ => exists w k, p = (Ok [v_solver path (bs_output sv); v_sres r], v_ctx c :: VSys (osr o (S t) (after o t fs) w) :: g ++ k)
  end.

Lemma ev_Command n s M g vm o env d e1 e2 p a :
  let st := mkMs env d (hc s M (VSys o :: g) vm) in
  EV n e1 st = (Ok (VStr p), st) -> EV n e2 st = (Ok (VStr a), st) ->
  EV n (XSys "exec.Command" [e1; e2]) st = (Ok (v_cmd p a VNil VNil), st).
Proof. intros st H1 H2. cbn [eval x_map]. unfold xbind. rewrite H1, H2. reflexivity. Qed.

Ltac ev_hook e ::=
  lazymatch e with
  | XNew _ => eapply ev_new_hs; ev
  | XDeref _ => first [eapply ev_deref_hs; ev | eapply ev_deref_hs2; ev]
  | XIs _ _ => eapply ev_is; [ev | cbv beta iota delta [v_is name_eqb]; reflexivity]
  | XSys "os.Remove" _ => eapply ev_Remove; ev
  | XSys "exec.Command" _ => eapply ev_Command; ev
  end.

Lemma go_Step n L q E s vm M g o path out k t fs w :
  reads E o path k t ->
  kept L (length (scopes s)) M (mkCtx s vm M) -> (length (scopes s) + qheight q <= L)%nat ->
  (base_fuel L M + 2 * qheight q + 1 <= n)%nat ->
  steps_as path o t fs g
    (gocall n "compute.binSolver.Step" [v_solver path out; v_query q; VPtr 0] (hc s M (VSys (osr o t fs w) :: g) vm))
    (Step E q (mkSolver out k) (mkCtx s vm M)).
Proof.
  intros R K Hh Hn. destruct n as [|n]; [lia|].
  destruct (R 0%nat) as (R1 & R2 & R3 & R4). rewrite !Nat.add_0_r in *.
  unfold Step. cbn [bs_calls bs_output]. rewrite R1. unfold tmp_ok.
  func_at src_compute_binSolver_Step.
  destruct (o_tmp o t) as [p|] eqn:Et; cbn [negb].
  2:{ cbn [steps_as]. exists w, []. unfold after. rewrite Et, app_nil_r.
      erewrite plug_step; [|eapply ex_assign2; [eapply ev_CreateTemp_fails; exact Et | asg | asg]].
      sts. reflexivity. }
  erewrite plug_step; [|eapply ex_assign2; [eapply ev_CreateTemp; exact Et | asg | asg]].
  stp. rewrite plug_defer.
  destruct (is_nil q) eqn:Eq.
  { assert (q = QNil) as -> by now destruct q. cbn [enc lift steps_as v_query].
    erewrite plug_panic; [apply fst_panic|]. eapply ex_assign2_panic. eapply ev_meth; [ev | evs |]. reflexivity. }
  assert (Hq : q <> QNil) by (intros ->; discriminate).
  pose proof (go_query q Hq L n s vm M (VSys (osr o (S t) (file_set p "" fs) w) :: g) K Hh ltac:(lia)) as X.
  pose proof (keep_enc q L (length (scopes s)) M Hh _ K) as KE.
  destruct (enc q (mkCtx s vm M)) as [r c]. unfold runs in X.
  pose proof (fun e0 d0 H1 H2 => ev_Encoding n (XVar "q") q e0 d0 (hc s M (VSys (osr o (S t) (file_set p "" fs) w) :: g) vm) Hq H1 H2) as Hcall.
  destruct r as [f|e| |].
  3:{ cbn [steps_as]. eapply sub_panic; [apply Hcall; [ev | look] | exact X]. }
  3:{ cbn [steps_as]. eapply sub_hang; [apply Hcall; [ev | look] | exact X]. }
  2:{ destruct X as (f & kk & X). cbn [steps_as].
      erewrite sub_ok; [|apply Hcall; [ev | look] | exact X | asg | asg].
      specialize (KE ltac:(discriminate)). destruct c as [s1 vm1 M1]. destruct KE as (_ & _ & _ & EM). cbn in EM. subst M1.
      change (v_ctx (mkCtx s1 vm1 M) :: (VSys (osr o (S t) (file_set p "" fs) w) :: g) ++ kk) with (hc s1 M (VSys (osr o (S t) (file_set p "" fs) w) :: g ++ kk) vm1).
      sts.
      exists w, kk. unfold after. rewrite Et, file_remove_set. reflexivity. }
  destruct X as (kk & X). specialize (KE ltac:(discriminate)). destruct c as [s1 vm1 M1]. destruct KE as (_ & _ & _ & EM). cbn in EM. subst M1.
  erewrite sub_ok; [|apply Hcall; [ev | look] | exact X | asg | asg]. clear Hcall X.
  change (v_ctx (mkCtx s1 vm1 M) :: (VSys (osr o (S t) (file_set p "" fs) w) :: g) ++ kk) with (hc s1 M (VSys (osr o (S t) (file_set p "" fs) w) :: g ++ kk) vm1).
  stp. rewrite R2, (ToFile_ext _ _ _ f R3).
  pose proof (go_ToFile n s1 M (g ++ kk) vm1 o (S t) (file_set p "" fs) w f p ltac:(unfold base_fuel in Hn; lia)) as T.
  destruct (ToFile (o_create o (S t)) (o_write o (S t)) f) as [file|e| |]; [..|elim T|elim T].
  2:{ destruct T as (fs1 & w1 & Hr & T). cbn [steps_as].
      erewrite plug_if;
        [|eapply blk_step; [eapply ex_assign; [eapply ev_meth; [ev | evs | eapply xm_val; [reflexivity | cbv; reflexivity | vm_compute; reflexivity | exact T | cbv beta iota delta [one]; reflexivity]] | asg]|apply blk_nil]|ev]; red_cond.
      sts. exists w1, kk. unfold after. rewrite Et, Hr, file_remove_set. reflexivity. }
  destruct T as (fs1 & w1 & Hg & Hr & T).
  erewrite plug_if;
    [|eapply blk_step; [eapply ex_assign; [eapply ev_meth; [ev | evs | eapply xm_val; [reflexivity | cbv; reflexivity | vm_compute; reflexivity | exact T | cbv beta iota delta [one]; reflexivity]] | asg]|apply blk_nil]|ev]; red_cond.
  stp. stp.
  destruct (go_runSolver n s1 M (g ++ kk) vm1 (osr o (S t) fs1 w1) path p ltac:(unfold base_fuel in Hn; lia)) as (z & k2 & C).
  cbn [osr o_time o_exec o_files] in C. rewrite Hg, <- R4 in C. fold (osr o (S t) fs1 w1) in C.
  assert (C2 : (exists code b, runSolver (e_run E k file) = Ok (code, b)) \/ (exists e, runSolver (e_run E k file) = Err e)).
  { unfold runSolver. destruct (e_run E k file) as [code b er|e]; [|eauto]. destruct (code =? 0); [eauto|].
    destruct (_ && _); eauto. }
  rewrite <- app_assoc in C.
  destruct C2 as [(code & b & C2)|(e & C2)]; rewrite C2 in C |- *; cbn [solver_result] in C.
  - erewrite plug_step; [|eapply ex_assign3; [eapply ev_call; [evs | red_env; exact C | cbv beta iota delta [one]; reflexivity] | asg | asg | asg]].
    stp. stp. destruct (code =? 20); cbn [steps_as].
    + sts. exists w1, (kk ++ k2). unfold after. rewrite Et, Hr, file_remove_set. reflexivity.
    + unfold v_solver. sts. exists w1, (kk ++ k2). unfold after. rewrite Et, Hr, file_remove_set. reflexivity.
  - cbn [steps_as]. erewrite plug_step; [|eapply ex_assign3; [eapply ev_call; [evs | red_env; exact C | cbv beta iota delta [one]; reflexivity] | asg | asg | asg]].
    sts. exists w1, (kk ++ k2). unfold after. rewrite Et, Hr, file_remove_set. reflexivity.
Qed.

(* ---- compute/solver.go:46-54 ---- *)

Lemma ev_Stat n s M g vm o env d e path v :
  let st := mkMs env d (hc s M (VSys o :: g) vm) in
  EV n e st = (Ok (VStr path), st) -> match o_stat o path with Some e => VErr e [] | None => VNil end = v ->
  EV n (XSys "os.Stat" [e]) st = (Ok (VTup [VNil; v]), st).
Proof. intros st H <-. cbn [eval x_map]. unfold xbind. rewrite H. reflexivity. Qed.
Lemma go_BinSolver n s M g vm o path :
  (1 <= n)%nat ->
  gocall n "compute.BinSolver" [VStr path] (hc s M (VSys o :: g) vm)
  = match o_stat o path with
    | Some e => (Ok [VNil; VErr e []], hc s M (VSys o :: g) vm)
    | None => (Ok [VPtr (S (S (length g))); VNil], hc s M (VSys o :: g ++ [v_solver path ""]) vm)
    end.
Proof.
  func src_compute_BinSolver.
  destruct (o_stat o path) as [e|] eqn:St.
  - erewrite plug_if; [|eapply blk_step; [eapply ex_assign2; [eapply ev_Stat; [ev | rewrite St; reflexivity] | asg | asg]|apply blk_nil]|ev]; red_cond.
    sts. reflexivity.
  - erewrite plug_if; [|eapply blk_step; [eapply ex_assign2; [eapply ev_Stat; [ev | rewrite St; reflexivity] | asg | asg]|apply blk_nil]|ev]; red_cond.
    sts. reflexivity.
Qed.
