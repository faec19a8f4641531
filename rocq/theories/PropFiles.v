(* Property C53: threads with their own contexts and solver values, and the
   temporary files. *)
From Verif Require Import GoBase GoLemmas Cnf Query Walk Atoms Logop Spec Meaning Truth CnfSem QueryLemmas Sym AtomBase TreeLemmas WalkLemmas AtomMain Form Master Block Ground Sat AtomCnf Evolve Names FirstOrder Answer Solver Dimacs Compute Run PropContext PropTruth PropCompute Optim PropOptim Files.
Local Open Scope string_scope.
Local Open Scope Z_scope.
Local Open Scope list_scope.

(* What a thread does: evaluate a combination of queries, or look for an optimal
   instance. *)
Inductive job :=
| JAsk (k : comb) (c : ctx) (s : solver)
| JBest (fuel : nat) (fg : QVar -> query) (og : QVar -> QConst -> query) (v : QVar) (c : ctx) (s : solver).
Inductive result :=
| RAsk (r : res bool * solver * ctx)
| RBest (r : res OptOutput * solver * ctx)
| RIdle.
Definition job_prog (j : option job) : prog result :=
  match j with
  | Some (JAsk k c s) => pbind (CombSatP k s c) (fun r => Done (RAsk r))
  | Some (JBest fuel fg og v c s) => pbind (ComputeOptimP fuel fg og v c s) (fun r => Done (RBest r))
  | None => Done RIdle
  end.
(* the same by itself, in the model of Compute.v *)
Definition job_result (E : Compute.env) (j : option job) : result :=
  match j with
  | Some (JAsk k c s) => RAsk (CombSat E k s c)
  | Some (JBest fuel fg og v c s) => RBest (ComputeOptim fuel E fg og v c s)
  | None => RIdle
  end.

Lemma job_wp : forall (runs : string -> run_result -> Prop) (fails : Prop) D, (forall t, runs t (D t)) -> forall j v,
  wp runs fails v (job_prog j) (fun v' a => (forall p, v' p = v p) /\ exists E, allowed runs fails E /\ job_result E j = a).
Proof.
  intros runs fails D DR [[k c s|fuel fg og u c s]|] v; cbn [job_prog job_result].
  - apply wp_bind. eapply wp_weaken; [|exact (does_comb runs fails D DR k s c v)]. cbn beta. intros v' a (V & _ & E & A & K). cbn [wp]. split; auto.
    exists E. split; auto. f_equal. apply K. intros i _. unfold same_at. auto.
  - apply wp_bind. eapply wp_weaken; [|exact (does_optim runs fails D DR fuel fg og u c s v)]. cbn beta. intros v' a (V & E & A & K). cbn [wp]. split; auto.
    exists E. split; auto. now f_equal.
  - cbn [wp]. split; auto. destruct (some_allowed runs fails D DR) as (E & A). exists E. auto.
Qed.

(* In whatever order the operations of the threads and of other processes come:
   a thread that has finished has the result that it has by itself, in an
   environment the world allows; files that are not temporary files of running
   threads are as the other processes made them. *)
Theorem C53_threads : forall (runs : string -> run_result -> Prop) (fails : Prop) D, (forall t, runs t (D t)) ->
  forall fs jobs w, wreach runs fails (start fs (fun i => job_prog (jobs i))) w ->
  (forall i a, w_ths _ w i = Done a -> exists E, allowed runs fails E /\ a = job_result E (jobs i)) /\
  (forall p, w_temps _ w p = true -> exists i, forall a, w_ths _ w i <> Done a) /\
  (forall p, w_temps _ w p = false -> w_fs _ w p = w_theirs _ w p).
Proof.
  intros runs fails D DR fs jobs w R.
  destruct (inv_reach runs fails _ (fun i v' a => (forall p, v' p = None) /\ exists E, allowed runs fails E /\ job_result E (jobs i) = a) fs (fun i => job_prog (jobs i))) with (w := w) as (vs & IV); auto.
  - intros i. eapply wp_weaken; [|exact (job_wp runs fails D DR (jobs i) Files.empty)]. cbn beta. intros v a [V K]. split; auto.
  - split; [|split].
    + intros i a E. pose proof (iv_wp _ _ _ _ _ IV i) as W. rewrite E in W. cbn [wp] in W. destruct W as (_ & E0 & A & K). exists E0. auto.
    + intros p T. destruct (iv_temp _ _ _ _ _ IV p T) as (i & N). exists i. intros a E. pose proof (iv_wp _ _ _ _ _ IV i) as W. rewrite E in W. cbn [wp] in W. destruct W as (W & _). now rewrite W in N.
    + apply (iv_rest _ _ _ _ _ IV).
Qed.
Print Assumptions C53_threads.

(* When all threads have finished no temporary file is left. *)
Corollary C53_no_file_left : forall (runs : string -> run_result -> Prop) (fails : Prop) D, (forall t, runs t (D t)) ->
  forall fs jobs w, wreach runs fails (start fs (fun i => job_prog (jobs i))) w -> (forall i, exists a, w_ths _ w i = Done a) ->
  forall p, w_fs _ w p = w_theirs _ w p.
Proof.
  intros runs fails D DR fs jobs w R AD p. destruct (C53_threads runs fails D DR fs jobs w R) as (_ & H2 & H3).
  apply H3. destruct (w_temps _ w p) eqn:T; auto. destruct (H2 p T) as (i & N). destruct (AD i) as (a & Ea). now elim (N a).
Qed.
Print Assumptions C53_no_file_left.

(* A solver program that answers files correctly. *)
Definition right_runs (runs : string -> run_result -> Prop) : Prop :=
  forall file r nv nc cls, runs file r -> read_dimacs file = Some (nv, nc, cls) -> 0 <= nv < 2 ^ 63 -> clauses_bound nv cls ->
  ((exists a, clauses_true a cls = true) -> exists out err ls a, r = RunExit 10 out err /\ prints out ls /\ gives nv ls a /\ clauses_true a cls = true) /\
  ((forall a, clauses_true a cls = false) -> exists out err, r = RunExit 20 out err).
Lemma allowed_right : forall (runs : string -> run_result -> Prop) E, right_runs runs -> allowed runs False E -> files_ok E /\ correct_solver E /\ e_opttmp E = true.
Proof.
  intros runs E RR [A1 A2]. destruct A2 as [A2 A3]; [tauto|]. split; [exact A2|]. split; [|exact A3].
  intros k file nv nc cls RD B CB. exact (RR file _ nv nc cls (A1 k file) RD B CB).
Qed.

(* Every thread that has finished evaluating a query has its truth value. *)
Theorem C53_answers : forall (runs : string -> run_result -> Prop) D, (forall t, runs t (D t)) -> right_runs runs ->
  forall fs jobs w, wreach runs False (start fs (fun i => job_prog (jobs i))) w ->
  forall i m t q N (negated : bool) s r, jobs i = Some (JAsk (CAtom q negated) (BasicQContext m) s) ->
  (0 < Dim m)%nat -> (has_all q = true -> is_dtree m t) -> wf_query m t q -> tidy N (Dim m) q -> fits m q ->
  w_ths _ w i = Done r ->
  exists b s' c', r = RAsk (Ok b, s', c') /\ (b = true <-> if negated then ~ true_query (Dim m) t q else true_query (Dim m) t q).
Proof.
  intros runs D DR RR fs jobs w R i m t q N negated s r J Hd HA W T F ED. destruct (C53_threads runs False D DR fs jobs w R) as (H1 & _).
  destruct (H1 i r ED) as (E & A & ->). destruct (allowed_right runs E RR A) as (FO & CS & _). rewrite J. cbn [job_result].
  destruct (C26_atom E m t q N negated s Hd HA W T F FO CS) as (b & s' & c' & X & B & _). exists b, s', c'. rewrite X. auto.
Qed.
Print Assumptions C53_answers.
(* Every thread that has finished looking for an optimal instance has one. *)
Theorem C53_optimal : forall (runs : string -> run_result -> Prop) D, (forall t, runs t (D t)) -> right_runs runs ->
  forall fs jobs w, wreach runs False (start fs (fun i => job_prog (jobs i))) w ->
  forall i m t N fg og v fuel s r, jobs i = Some (JBest fuel fg og v (BasicQContext m) s) -> problem m t N fg og v ->
  let ok := satisfies (Dim m) t v (fg v) in
  let lt e' e := satisfies (Dim m) t v (og v (mkQConst "" e)) e' in
  (exists e, ok e) -> (forall e, ok e -> ~ lt e e) -> (forall e1 e2 e3, ok e1 -> ok e2 -> ok e3 -> lt e1 e2 -> lt e2 e3 -> lt e1 e3) ->
  (3 ^ Dim m <= fuel)%nat -> w_ths _ w i = Done r ->
  exists e n s' c', r = RBest (Ok (mkOpt true (mkQConst "" e) n), s', c') /\ ok e /\ (forall e', ok e' -> ~ lt e' e).
Proof.
  intros runs D DR RR fs jobs w R i m t N fg og v fuel s r J P ok lt H1 H2 H3 HF ED. destruct (C53_threads runs False D DR fs jobs w R) as (X1 & _).
  destruct (X1 i r ED) as (E & A & ->). destruct (allowed_right runs E RR A) as (FO & CS & ET). rewrite J. cbn [job_result].
  destruct (C28_optimal E m t N fg og v fuel s P FO CS ET H1 H2 H3 HF) as (e & n & s' & c' & Y1 & Y2 & Y3 & _). exists e, n, s', c'. rewrite Y1. auto.
Qed.
Print Assumptions C53_optimal.

(* Threads are never stuck: unless it loops, a thread that has not finished can
   do its next operation, if there is a free name. *)
Theorem C53_not_stuck : forall (runs : string -> run_result -> Prop) (fails : Prop) D, (forall t, runs t (D t)) -> forall A (w : world A) i, (exists p, w_fs _ w p = None) ->
  (exists a, w_ths _ w i = Done a) \/ w_ths _ w i = PHang \/ exists fs' x', tstep runs fails (w_fs _ w) (w_ths _ w i) fs' x'.
Proof.
  intros runs fails D DR A w i (p0 & N). destruct (w_ths _ w i) as [a|k|p k|p d k|p k|p k|]; eauto; right; right.
  - do 2 eexists. apply t_temp. exact N.
  - do 2 eexists. apply t_create.
  - destruct (w_fs _ w p) eqn:E; do 2 eexists; [eapply t_write|eapply t_write_gone]; eauto.
  - destruct (w_fs _ w p) eqn:E; do 2 eexists; [eapply t_run; eauto|apply (t_run_gone _ _ _ _ _ (RunFail "")); auto].
  - do 2 eexists. apply t_remove.
Qed.
Print Assumptions C53_not_stuck.

(* ---- a run with two threads ---- *)

Definition ideal_runs (t : string) (r : run_result) : Prop := r = ideal_run t.
Lemma ideal_right : right_runs ideal_runs.
Proof. intros file r nv nc cls -> RD B CB. exact (ideal_correct 0%nat file nv nc cls RD B CB). Qed.

(* one operation of thread i, which takes the name "tmp.cnf" and the next digit *)
Definition exec1 (w : world result) (i : nat) : world result :=
  let next fs' x' := mkWorld _ fs' (fun j => if Nat.eqb j i then x' else w_ths _ w j) (temps_after (w_ths _ w i) fs' (w_fs _ w) (w_temps _ w)) (w_theirs _ w) in
  match w_ths _ w i with
  | PTemp k =>
      let p := if match w_fs _ w "tmp.cnf1" with None => true | _ => false end then "tmp.cnf1" else "tmp.cnf2" in
      match w_fs _ w p with None => next (upd (w_fs _ w) p (Some "")) (k (Some p)) | Some _ => w end
  | PCreate p k => next (upd (w_fs _ w) p (Some "")) (k true)
  | PWrite p d k => match w_fs _ w p with Some old => next (upd (w_fs _ w) p (Some (old ++ d)%string)) (k true) | None => next (w_fs _ w) (k true) end
  | PRun p k => match w_fs _ w p with Some t => next (w_fs _ w) (k (ideal_run t)) | None => w end
  | PRemove p k => next (upd (w_fs _ w) p None) k
  | _ => w
  end.
Lemma exec1_reach : forall w0 w i, wreach ideal_runs False w0 w -> wreach ideal_runs False w0 (exec1 w i).
Proof.
  intros w0 w i R. unfold exec1. destruct (w_ths _ w i) as [a|k|p k|p d k|p k|p k|] eqn:E; auto.
  - destruct (w_fs _ w _) eqn:EF; auto. eapply wr_step; [exact R|]. rewrite <- E. apply w_thread. rewrite E. now apply t_temp.
  - eapply wr_step; [exact R|]. rewrite <- E. apply w_thread. rewrite E. apply t_create.
  - destruct (w_fs _ w p) eqn:EF; (eapply wr_step; [exact R|]); rewrite <- E; apply w_thread; rewrite E; [eapply t_write|apply t_write_gone]; eauto.
  - destruct (w_fs _ w p) eqn:EF; auto. eapply wr_step; [exact R|]. rewrite <- E. apply w_thread. rewrite E. eapply t_run; eauto. reflexivity.
  - eapply wr_step; [exact R|]. rewrite <- E. apply w_thread. rewrite E. apply t_remove.
Qed.

(* Thread 0 asks for an instance above 1., thread 1 for one above 1. and 0.; they
   take turns, so both files exist at the same time. *)
Definition above (k : list Z) : query := QAtom (SubsCV (mkQConst "" k) "x").
Definition two_jobs (i : nat) : option job :=
  match i with
  | O => Some (JAsk (CAtom (QWith "x" (above [ONE; BOT])) false) (BasicQContext stump) (mkSolver "" 0))
  | S O => Some (JAsk (CAtom (QWith "x" (QAnd (above [ONE; BOT]) (above [ZERO; BOT]))) false) (BasicQContext stump) (mkSolver "" 0))
  | _ => None
  end.
Definition turns_of_two (n : nat) : world result := fold_left exec1 (concat (repeat [0%nat; 1%nat] n)) (start Files.empty (fun i => job_prog (two_jobs i))).
Definition tells (x : prog result) : option bool := match x with Done (RAsk (Ok b, _, _)) => Some b | _ => None end.
Definition size_of (x : option string) : nat := match x with Some t => String.length t | None => 0 end.
Example C53_case : wreach ideal_runs False (start Files.empty (fun i => job_prog (two_jobs i))) (turns_of_two 16) /\
  (* in the middle *)
  size_of (w_fs _ (turns_of_two 8) "tmp.cnf1") = 46%nat /\ size_of (w_fs _ (turns_of_two 8) "tmp.cnf2") = 43%nat /\
  (* at the end *)
  tells (w_ths _ (turns_of_two 16) 0%nat) = Some true /\ tells (w_ths _ (turns_of_two 16) 1%nat) = Some false /\
  w_fs _ (turns_of_two 16) "tmp.cnf1" = None /\ w_fs _ (turns_of_two 16) "tmp.cnf2" = None.
Proof.
  split; [|vm_compute; auto 10].
  unfold turns_of_two. generalize (concat (repeat [0%nat; 1%nat] 16)). intros l. set (w0 := start _ _). assert (G : forall w, wreach ideal_runs False w0 w -> wreach ideal_runs False w0 (fold_left exec1 l w)).
  { induction l as [|i l IH]; intros w R; cbn [fold_left]; auto. apply IH. now apply exec1_reach. }
  apply G. constructor.
Qed.

(* One solver value for two evaluations: the values read for the first query are
   those of the second, even with a context for each. *)
Theorem C53_shared_solver_refuted : exists q1 q2 m s1 c1 s2 c2 k, let s := mkSolver "" 0 in
  Step ideal q1 s (BasicQContext m) = (SSat, s1, c1) /\ Step ideal q2 s1 (BasicQContext m) = (SSat, s2, c2) /\
  Values (bs_output s2) ["x"] c1 = (Ok [k], c1) /\ ~ satisfies (Dim m) stump_tree "x" (above [ONE; BOT]) (cVal k) /\ q1 = QWith "x" (above [ONE; BOT]).
Proof.
  exists (QWith "x" (above [ONE; BOT])), (QWith "x" (above [ZERO; BOT])), stump. do 5 eexists. cbv zeta.
  split; [vm_compute; reflexivity|]. split; [vm_compute; reflexivity|]. split; [vm_compute; reflexivity|]. split; [|reflexivity].
  intros (E & X1 & X2 & X3). cbn in X3. rewrite X2 in X3. specialize (X3 0). vm_compute in X3. intuition discriminate.
Qed.
Print Assumptions C53_shared_solver_refuted.
