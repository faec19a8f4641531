(* Temporary files and other threads.  Compute.v takes from the file system only
   whether calls succeed, and gives the solver the text that was written.  Here
   the calls act on a file system that any number of threads and other processes
   use at the same time: each thread runs Step, Sat or ComputeOptim with its own
   context and solver value, one file operation at a time, in any order. *)
From Verif Require Import GoBase GoLemmas Cnf Query Walk Atoms Logop Spec Meaning Truth CnfSem QueryLemmas Dimacs Compute.
Local Open Scope string_scope.
Local Open Scope list_scope.

(* ---- programs that use files ---- *)

(* Open files are identified with their names: the library opens a file only
   under the name CreateTemp gave it. *)
Inductive prog (A : Type) :=
| Done (a : A)
| PTemp (k : option string -> prog A)          (* os.CreateTemp *)
| PCreate (p : string) (k : bool -> prog A)    (* os.Create: truncates *)
| PWrite (p d : string) (k : bool -> prog A)   (* f.WriteString *)
| PRun (p : string) (k : run_result -> prog A) (* cmd.Run of the solver on p *)
| PRemove (p : string) (k : prog A)            (* os.Remove *)
| PHang.                                       (* an endless loop *)
Arguments Done {A}. Arguments PTemp {A}. Arguments PCreate {A}. Arguments PWrite {A}.
Arguments PRun {A}. Arguments PRemove {A}. Arguments PHang {A}.

Fixpoint pbind {A B} (x : prog A) (f : A -> prog B) : prog B :=
  match x with
  | Done a => f a
  | PTemp k => PTemp (fun o => pbind (k o) f)
  | PCreate p k => PCreate p (fun o => pbind (k o) f)
  | PWrite p d k => PWrite p d (fun o => pbind (k o) f)
  | PRun p k => PRun p (fun o => pbind (k o) f)
  | PRemove p k => PRemove p (pbind k f)
  | PHang => PHang
  end.

(* cnf/cnf.go:218-240: the strings written, in order *)
Definition chunks (f : CNF) : list string :=
  dimacs_header f :: map (fun cl => clauseToDIMACS cl ++ newline)%string (sClauses f ++ cClauses f).
Fixpoint writes {A} (p : string) (l : list string) (k : bool -> prog A) : prog A :=
  match l with
  | [] => k true
  | d :: r => PWrite p d (fun ok => if ok then writes p r k else k false)
  end.

(* compute/solver.go:56-92.  The deferred removal runs on every return and on a
   panic; Close is left out (its errors are ignored). *)
Definition StepP (q : query) (s : solver) (c : ctx) : prog (sres * solver * ctx) :=
  let s := mkSolver (bs_output s) (S (bs_calls s)) in
  PTemp (fun o =>
    match o with
    | None => Done (SErr tmp_err, s, c)
    | Some p =>
        let leave r := PRemove p (Done r) in
        match enc q c with
        | (Err e, c) => leave (SErr e, s, c)
        | (Panic, c) => leave (SPanic, s, c)
        | (Hang, c) => PHang
        | (Ok f, c) =>
            PCreate p (fun ok =>
              if ok then
                writes p (chunks f) (fun ok =>
                  if ok then
                    PRun p (fun r =>
                      match runSolver r with
                      | Err e => leave (SErr e, s, c)
                      | Panic => leave (SPanic, s, c)
                      | Hang => PHang
                      | Ok (code, out) =>
                          if (code =? 20)%Z then leave (SUnsat, s, c)
                          else leave (SSat, mkSolver out (bs_calls s), c)
                      end)
                  else leave (SErr io_error, s, c))
              else leave (SErr io_error, s, c))
        end
    end).

(* compute/optimum.go:67-93 *)
Fixpoint opt_loopP (fuel : nat) (fg : QVar -> query) (og : QVar -> QConst -> query)
    (v : QVar) (s : solver) (c : ctx) (steps : Z) : prog (res OptOutput * solver * ctx) :=
  match fuel with
  | O => PHang
  | S f =>
      let steps := (steps + 1)%Z in
      match Values (bs_output s) [v] c with
      | (Err e, c) => Done (Err e, s, c)
      | (Panic, c) => Done (Panic, s, c)
      | (Hang, c) => PHang
      | (Ok [], c) => Done (Panic, s, c)
      | (Ok (bm :: _), c) =>
          let c := CtxReset c in
          pbind (StepP (QWith v (QAnd (fg v) (og v bm))) s c) (fun x =>
            match x with
            | (SSat, s, c) => opt_loopP f fg og v s c steps
            | (SUnsat, s, c) => Done (Ok (mkOpt true bm steps), s, c)
            | (SErr e, s, c) => Done (Err e, s, c)
            | (SPanic, s, c) => Done (Panic, s, c)
            | (SHang, s, c) => PHang
            end)
      end
  end.

(* compute/optimum.go:39-96 *)
Definition ComputeOptimP (fuel : nat) (fg : QVar -> query) (og : QVar -> QConst -> query)
    (v : QVar) (c : ctx) (s : solver) : prog (res OptOutput * solver * ctx) :=
  PTemp (fun o =>
    match o with
    | None => Done (Ok opt_zero, s, c)
    | Some p =>
        pbind
          (pbind (StepP (QWith v (fg v)) s c) (fun x =>
             match x with
             | (SSat, s, c) => opt_loopP fuel fg og v s c 1
             | (SUnsat, s, c) => Done (Ok (mkOpt false (mkQConst "" []) 1), s, c)
             | (SErr e, s, c) => Done (Err e, s, c)
             | (SPanic, s, c) => Done (Panic, s, c)
             | (SHang, s, c) => PHang
             end))
          (fun r => PRemove p (Done r))
    end).

(* compute/boolcomb.go:20-33, 38-51 and 65-79 *)
Fixpoint CombSatP (k : comb) (s : solver) (c : ctx) : prog (res bool * solver * ctx) :=
  match k with
  | CNil => Done (Panic, s, c)
  | CAtom q negated =>
      pbind (StepP q s c) (fun x =>
        match x with
        | (SSat, s, c) => Done (Ok (negb negated), s, c)
        | (SUnsat, s, c) => Done (Ok negated, s, c)
        | (SErr e, s, c) => Done (Err e, s, c)
        | (SPanic, s, c) => Done (Panic, s, c)
        | (SHang, s, c) => PHang
        end)
  | CAnd l =>
      (fix go (l : list comb) (s : solver) (c : ctx) {struct l} :=
         match l with
         | [] => Done (Ok true, s, c)
         | e :: r =>
             pbind (CombSatP e s c) (fun x =>
               match x with
               | (Ok true, s, c) => go r s c
               | other => Done other
               end)
         end) l s c
  | COr l =>
      (fix go (l : list comb) (s : solver) (c : ctx) {struct l} :=
         match l with
         | [] => Done (Ok false, s, c)
         | e :: r =>
             pbind (CombSatP e s c) (fun x =>
               match x with
               | (Ok false, s, c) => go r s c
               | other => Done other
               end)
         end) l s c
  end.

(* ---- threads on one file system ---- *)

Definition fsys := string -> option string.
Definition upd (fs : fsys) (p : string) (x : option string) : fsys := fun p' => if String.eqb p' p then x else fs p'.

Section World.
(* What the solver program may do on a file with a given text. *)
Variable runs : string -> run_result -> Prop.
(* May file operations fail?  (Removing a file that CreateTemp made does not.) *)
Variable fails : Prop.

(* One operation of one thread. *)
Inductive tstep {A} : fsys -> prog A -> fsys -> prog A -> Prop :=
| t_temp : forall fs p k, fs p = None -> tstep fs (PTemp k) (upd fs p (Some "")) (k (Some p))
| t_temp_fail : forall fs k, fails -> tstep fs (PTemp k) fs (k None)
| t_create : forall fs p k, tstep fs (PCreate p k) (upd fs p (Some "")) (k true)
| t_create_fail : forall fs p k, fails -> tstep fs (PCreate p k) fs (k false)
| t_write : forall fs p d k old, fs p = Some old -> tstep fs (PWrite p d k) (upd fs p (Some (old ++ d)%string)) (k true)
| t_write_gone : forall fs p d k, fs p = None -> tstep fs (PWrite p d k) fs (k true)
| t_write_fail : forall fs p d k x, fails -> tstep fs (PWrite p d k) (upd fs p (Some x)) (k false)
| t_run : forall fs p k t r, fs p = Some t -> runs t r -> tstep fs (PRun p k) fs (k r)
| t_run_gone : forall fs p k r, fs p = None -> tstep fs (PRun p k) fs (k r)
| t_remove : forall fs p k, tstep fs (PRemove p k) (upd fs p None) k.

(* The threads, the files, and two records that no one reads: the names handed
   out by CreateTemp and not removed since, and the files as the other processes
   made them. *)
Record world (A : Type) := mkWorld { w_fs : fsys; w_ths : nat -> prog A; w_temps : string -> bool; w_theirs : fsys }.
Arguments mkWorld {A}. Arguments w_fs {A}. Arguments w_ths {A}. Arguments w_temps {A}. Arguments w_theirs {A}.

Definition temps_after {A} (x : prog A) (fs' : fsys) (fs : fsys) (temps : string -> bool) : string -> bool :=
  match x with
  | PTemp _ => fun p => match fs p, fs' p with None, Some _ => true | _, _ => temps p end
  | PRemove p0 _ => fun p => if String.eqb p p0 then false else temps p
  | _ => temps
  end.

Inductive wstep {A} : world A -> world A -> Prop :=
| w_thread : forall w i fs' x', tstep (w_fs w) (w_ths w i) fs' x' ->
    wstep w (mkWorld fs' (fun j => if Nat.eqb j i then x' else w_ths w j) (temps_after (w_ths w i) fs' (w_fs w) (w_temps w)) (w_theirs w))
(* Another process does what it likes to files that are not our temporary files. *)
| w_other : forall w fs' theirs', (forall p, w_temps w p = true -> fs' p = w_fs w p /\ theirs' p = w_theirs w p) ->
    (forall p, w_temps w p = false -> theirs' p = fs' p) ->
    wstep w (mkWorld fs' (w_ths w) (w_temps w) theirs').
Inductive wreach {A} : world A -> world A -> Prop :=
| wr_refl : forall w, wreach w w
| wr_step : forall w1 w2 w3, wreach w1 w2 -> wstep w2 w3 -> wreach w1 w3.
Definition start {A} (fs : fsys) (ths : nat -> prog A) : world A := mkWorld fs ths (fun _ => false) fs.

(* ---- what a thread sees by itself ---- *)

(* v: the thread's own files.  The program only touches files of its own, and
   ends in Q. *)
Fixpoint wp {A} (v : fsys) (x : prog A) (Q : fsys -> A -> Prop) : Prop :=
  match x with
  | Done a => Q v a
  | PTemp k => (fails -> wp v (k None) Q) /\ forall p, v p = None -> wp (upd v p (Some "")) (k (Some p)) Q
  | PCreate p k => v p <> None /\ wp (upd v p (Some "")) (k true) Q /\ (fails -> wp v (k false) Q)
  | PWrite p d k => exists old, v p = Some old /\ wp (upd v p (Some (old ++ d)%string)) (k true) Q /\ (fails -> forall t, wp (upd v p (Some t)) (k false) Q)
  | PRun p k => exists t, v p = Some t /\ forall r, runs t r -> wp v (k r) Q
  | PRemove p k => v p <> None /\ wp (upd v p None) k Q
  | PHang => True
  end.

Lemma wp_bind : forall A B (x : prog A) (f : A -> prog B) Q v, wp v x (fun v' a => wp v' (f a) Q) -> wp v (pbind x f) Q.
Proof.
  intros A B x f Q. induction x as [a|k IH|p k IH|p d k IH|p k IH|p k IH|]; intros v W; cbn [wp pbind] in *; auto.
  - destruct W as [W1 W2]. split; auto.
  - destruct W as (W1 & W2 & W3). auto.
  - destruct W as (old & W1 & W2 & W3). exists old. auto.
  - destruct W as (t & W1 & W2). exists t. auto.
  - destruct W as (W1 & W2). auto.
Qed.
Lemma wp_weaken : forall A (x : prog A) (Q Q' : fsys -> A -> Prop), (forall v a, Q v a -> Q' v a) -> forall v, wp v x Q -> wp v x Q'.
Proof.
  intros A x Q Q' I. induction x as [a|k IH|p k IH|p d k IH|p k IH|p k IH|]; intros v W; cbn [wp] in *; auto.
  - destruct W as [W1 W2]. split; auto.
  - destruct W as (W1 & W2 & W3). auto.
  - destruct W as (old & W1 & W2 & W3). exists old. auto.
  - destruct W as (t & W1 & W2). exists t. auto.
  - destruct W as (W1 & W2). auto.
Qed.

Lemma upd_same : forall fs p x, upd fs p x p = x.
Proof. intros. unfold upd. now rewrite String.eqb_refl. Qed.
Lemma upd_other : forall fs p x p', p' <> p -> upd fs p x p' = fs p'.
Proof. intros. unfold upd. destruct (String.eqb_spec p' p); congruence. Qed.

(* Threads that keep to their own files do not disturb each other. *)
Record inv {A} (Q : nat -> fsys -> A -> Prop) (w : world A) (vs : nat -> fsys) : Prop := {
  iv_wp : forall i, wp (vs i) (w_ths w i) (Q i);
  iv_own : forall i p t, vs i p = Some t -> w_fs w p = Some t /\ w_theirs w p = None /\ w_temps w p = true;
  iv_temp : forall p, w_temps w p = true -> exists i, vs i p <> None;
  iv_rest : forall p, w_temps w p = false -> w_fs w p = w_theirs w p;
  iv_apart : forall i j p, vs i p <> None -> vs j p <> None -> i = j
}.

Definition vset (vs : nat -> fsys) (i : nat) (v : fsys) : nat -> fsys := fun j => if Nat.eqb j i then v else vs j.
Lemma vset_same : forall vs i v, vset vs i v i = v.
Proof. intros. unfold vset. now rewrite Nat.eqb_refl. Qed.
Lemma vset_other : forall vs i v j, j <> i -> vset vs i v j = vs j.
Proof. intros. unfold vset. destruct (Nat.eqb_spec j i); congruence. Qed.

(* a change of a file the thread owns already *)
Lemma inv_owned : forall A (Q : nat -> fsys -> A -> Prop) w vs i p t x', inv Q w vs -> vs i p <> None ->
  wp (upd (vs i) p (Some t)) x' (Q i) ->
  inv Q (mkWorld (upd (w_fs w) p (Some t)) (fun j => if Nat.eqb j i then x' else w_ths w j) (w_temps w) (w_theirs w)) (vset vs i (upd (vs i) p (Some t))).
Proof.
  intros A Q w vs i p t x' [V1 V2 V3 V4 V5] O W.
  assert (OP : w_theirs w p = None /\ w_temps w p = true) by (destruct (vs i p) as [t0|] eqn:E; [apply (V2 i p t0 E)|congruence]).
  assert (NN : forall j p0, vset vs i (upd (vs i) p (Some t)) j p0 <> None <-> vs j p0 <> None).
  { intros j p0. destruct (Nat.eq_dec j i) as [->|NE]; [rewrite vset_same|rewrite vset_other by auto; tauto].
    destruct (string_dec p0 p) as [->|NP]; [rewrite upd_same|rewrite upd_other by auto; tauto]. split; auto. discriminate. }
  split; cbn [w_fs w_ths w_temps w_theirs].
  - intros j. destruct (Nat.eq_dec j i) as [->|NE]; [rewrite vset_same, Nat.eqb_refl; exact W|]. rewrite vset_other by auto. destruct (Nat.eqb_spec j i); [congruence|apply V1].
  - intros j p0 t0 E. destruct (string_dec p0 p) as [->|NP].
    + assert (j = i) as -> by (apply (V5 j i p); auto; apply NN; congruence). rewrite vset_same, upd_same in E. rewrite upd_same. tauto.
    + rewrite upd_other by auto. apply (V2 j). destruct (Nat.eq_dec j i) as [->|NE]; [rewrite vset_same, upd_other in E by auto; exact E|now rewrite vset_other in E].
  - intros p0 T. destruct (V3 p0 T) as (j & J). exists j. now apply NN.
  - intros p0 T. rewrite upd_other; [now apply V4|]. intros ->. destruct OP. congruence.
  - intros j k p0 A1 A2. apply NN in A1, A2. eauto.
Qed.
(* no change of files *)
Lemma inv_quiet : forall A (Q : nat -> fsys -> A -> Prop) w vs i x', inv Q w vs -> wp (vs i) x' (Q i) ->
  inv Q (mkWorld (w_fs w) (fun j => if Nat.eqb j i then x' else w_ths w j) (w_temps w) (w_theirs w)) vs.
Proof.
  intros A Q w vs i x' [V1 V2 V3 V4 V5] W. split; cbn [w_fs w_ths w_temps w_theirs]; auto.
  intros j. destruct (Nat.eqb_spec j i) as [->|NE]; auto.
Qed.

Lemma inv_step : forall A (Q : nat -> fsys -> A -> Prop) w w' vs, wstep w w' -> inv Q w vs -> exists vs', inv Q w' vs'.
Proof.
  intros A Q w w' vs St IV. destruct St as [w i fs' x' St|w fs' theirs' H1 H2].
  - pose proof (iv_wp _ _ _ IV i) as W. remember (w_fs w) as fs eqn:EF. remember (w_ths w i) as x eqn:EX.
    destruct St as [fs p k E|fs k F|fs p k|fs p k F|fs p d k old E|fs p d k E|fs p d k x F|fs p k t r E R|fs p k r E|fs p k]; cbn [wp temps_after] in *; subst fs.
    + destruct W as [_ W]. assert (NV : forall j, vs j p = None).
      { intros j. destruct (vs j p) as [t|] eqn:EV; auto. destruct (iv_own _ _ _ IV j p t EV). congruence. }
      assert (NT : w_temps w p = false).
      { destruct (w_temps w p) eqn:ET; auto. destruct (iv_temp _ _ _ IV p ET) as (j & J). now rewrite NV in J. }
      assert (TH : w_theirs w p = None) by (rewrite <- (iv_rest _ _ _ IV p NT); exact E).
      assert (TA : forall p0, match w_fs w p0 with Some _ => w_temps w p0 | None => match upd (w_fs w) p (Some "") p0 with Some _ => true | None => w_temps w p0 end end = if String.eqb p0 p then true else w_temps w p0).
      { intros p0. unfold upd. destruct (String.eqb_spec p0 p) as [->|NP]; [now rewrite E|]. now destruct (w_fs w p0). }
      exists (vset vs i (upd (vs i) p (Some ""))). split; cbn [w_fs w_ths w_temps w_theirs].
      * intros j. destruct (Nat.eqb_spec j i) as [->|NE]; [rewrite vset_same; apply W, NV|]. rewrite vset_other by auto. apply IV.
      * intros j p0 t0 E0. rewrite TA. unfold upd at 1. destruct (String.eqb_spec p0 p) as [->|NP].
        -- destruct (Nat.eq_dec j i) as [->|NE]; [|rewrite vset_other, NV in E0 by auto; discriminate]. rewrite vset_same, upd_same in E0. auto.
        -- apply (iv_own _ _ _ IV j). destruct (Nat.eq_dec j i) as [->|NE]; [rewrite vset_same, upd_other in E0 by auto; exact E0|now rewrite vset_other in E0].
      * intros p0. rewrite TA. destruct (String.eqb_spec p0 p) as [->|NP]; intros T.
        -- exists i. rewrite vset_same, upd_same. discriminate.
        -- destruct (iv_temp _ _ _ IV p0 T) as (j & J). exists j. destruct (Nat.eq_dec j i) as [->|NE]; [now rewrite vset_same, upd_other by auto|now rewrite vset_other].
      * intros p0. rewrite TA. unfold upd. destruct (String.eqb p0 p); [discriminate|]. apply IV.
      * intros j1 j2 p0 A1 A2. destruct (string_dec p0 p) as [->|NP].
        -- assert (G : forall j, vset vs i (upd (vs i) p (Some "")) j p <> None -> j = i).
           { intros j. destruct (Nat.eq_dec j i); auto. rewrite vset_other, NV by auto. congruence. }
           rewrite (G j1 A1), (G j2 A2). reflexivity.
        -- assert (G : forall j, vset vs i (upd (vs i) p (Some "")) j p0 <> None -> vs j p0 <> None).
           { intros j. destruct (Nat.eq_dec j i) as [->|]; [now rewrite vset_same, upd_other|now rewrite vset_other]. }
           apply (iv_apart _ _ _ IV j1 j2 p0); auto.
    + exists vs. destruct W as [W _]. pose proof (inv_quiet _ _ _ _ i (k None) IV (W F)) as X. destruct X as [X1 X2 X3 X4 X5].
      assert (TA : forall p0, match w_fs w p0 with Some _ => w_temps w p0 | None => match w_fs w p0 with Some _ => true | None => w_temps w p0 end end = w_temps w p0) by (intros p0; now destruct (w_fs w p0)).
      split; cbn [w_fs w_ths w_temps w_theirs] in *; auto.
      * intros j p0 t0 E0. rewrite TA. eauto.
      * intros p0. rewrite TA. eauto.
      * intros p0. rewrite TA. eauto.
    + destruct W as (W1 & W2 & _). eexists. apply inv_owned; eauto.
    + destruct W as (_ & _ & W). exists vs. apply inv_quiet; auto.
    + destruct W as (old' & W1 & W2 & _). destruct (iv_own _ _ _ IV i p old' W1) as [E' _]. assert (old' = old) as -> by congruence.
      eexists. apply inv_owned; eauto. congruence.
    + destruct W as (old' & W1 & _). destruct (iv_own _ _ _ IV i p old' W1) as [E' _]. congruence.
    + destruct W as (old' & W1 & _ & W). eexists. apply inv_owned; eauto. congruence.
    + destruct W as (t' & W1 & W). destruct (iv_own _ _ _ IV i p t' W1) as [E' _]. assert (t' = t) as -> by congruence. exists vs. apply inv_quiet; auto.
    + destruct W as (old' & W1 & _). destruct (iv_own _ _ _ IV i p old' W1) as [E' _]. congruence.
    + destruct W as (W1 & W). destruct (vs i p) as [t|] eqn:EV; [clear W1|congruence]. destruct (iv_own _ _ _ IV i p t EV) as (E1 & E2 & E3).
      assert (ON : forall j, vs j p <> None -> j = i) by (intros j J; apply (iv_apart _ _ _ IV j i p); congruence).
      exists (vset vs i (upd (vs i) p None)). split; cbn [w_fs w_ths w_temps w_theirs].
      * intros j. destruct (Nat.eqb_spec j i) as [->|NE]; [rewrite vset_same; apply W|]. rewrite vset_other by auto. apply IV.
      * intros j p0 t0 E0. unfold upd at 1. destruct (String.eqb_spec p0 p) as [->|NP].
        -- destruct (Nat.eq_dec j i) as [->|NE]; [rewrite vset_same, upd_same in E0; discriminate|]. rewrite vset_other in E0 by auto. elim NE. apply ON. congruence.
        -- apply (iv_own _ _ _ IV j). destruct (Nat.eq_dec j i) as [->|NE]; [rewrite vset_same, upd_other in E0 by auto; exact E0|now rewrite vset_other in E0].
      * intros p0. destruct (String.eqb_spec p0 p) as [->|NP]; [discriminate|]. intros T.
        destruct (iv_temp _ _ _ IV p0 T) as (j & J). exists j. destruct (Nat.eq_dec j i) as [->|NE]; [now rewrite vset_same, upd_other by auto|now rewrite vset_other].
      * intros p0. unfold upd. destruct (String.eqb_spec p0 p) as [->|NP]; [congruence|]. apply IV.
      * intros j1 j2 p0 A1 A2.
        assert (G : forall j, vset vs i (upd (vs i) p None) j p0 <> None -> vs j p0 <> None).
        { intros j. destruct (Nat.eq_dec j i) as [->|]; [|now rewrite vset_other]. rewrite vset_same. unfold upd. destruct (String.eqb p0 p); congruence. }
        apply (iv_apart _ _ _ IV j1 j2 p0); auto.
  - exists vs. destruct IV as [V1 V2 V3 V4 V5]. split; cbn [w_fs w_ths w_temps w_theirs]; auto.
    + intros i p t E. destruct (V2 i p t E) as (A1 & A2 & A3). destruct (H1 p A3) as [B1 B2]. rewrite B1, B2. auto.
    + intros p T. symmetry. auto.
Qed.

Definition empty : fsys := fun _ => None.
Lemma inv_reach : forall A (Q : nat -> fsys -> A -> Prop) fs ths, (forall i, wp empty (ths i) (Q i)) ->
  forall w, wreach (start fs ths) w -> exists vs, inv Q w vs.
Proof.
  intros A Q fs ths W w R. remember (start fs ths) as w0 eqn:E0. induction R as [w|w1 w2 w3 R IH St].
  - subst w. exists (fun _ => empty). split; cbn [start w_fs w_ths w_temps w_theirs]; auto; unfold empty; try discriminate; try congruence.
  - destruct (IH E0) as (vs & IV). eapply inv_step; eauto.
Qed.

(* ---- a thread by itself does what Compute.v says ---- *)

(* The environment of Compute.v is one that this world allows. *)
Definition allowed (E : env) : Prop :=
  (forall k t, runs t (e_run E k t)) /\
  (~ fails -> (forall k, e_tmp E k = true /\ e_create E k = true /\ forall i, e_write E k i = true) /\ e_opttmp E = true).
Definition same_at (j : nat) (E E' : env) : Prop :=
  e_tmp E j = e_tmp E' j /\ e_create E j = e_create E' j /\ (forall i, e_write E j i = e_write E' j i) /\ forall t, e_run E j t = e_run E' j t.
Definition same_on (a b : nat) (E E' : env) : Prop := forall j, (a <= j < b)%nat -> same_at j E E'.

Definition calls {X} (a : X * solver * ctx) : nat := bs_calls (snd (fst a)).
(* From solver calls k on, x does what F does, and leaves the files as they were. *)
Definition does {X} (k : nat) (F : env -> X * solver * ctx) (v : fsys) (x : prog (X * solver * ctx)) : Prop :=
  wp v x (fun v' a => (forall p, v' p = v p) /\ (k <= calls a)%nat /\ exists E, allowed E /\ forall E', same_on k (calls a) E E' -> F E' = a).

Definition glue (n : nat) (E1 E2 : env) : env :=
  mkEnv (fun j => if Nat.ltb j n then e_tmp E1 j else e_tmp E2 j) (fun j => if Nat.ltb j n then e_create E1 j else e_create E2 j)
    (fun j => if Nat.ltb j n then e_write E1 j else e_write E2 j) (fun j => if Nat.ltb j n then e_run E1 j else e_run E2 j) (e_opttmp E1).
Lemma glue_allowed : forall n E1 E2, allowed E1 -> allowed E2 -> allowed (glue n E1 E2).
Proof.
  intros n E1 E2 [A1 A2] [B1 B2]. split; [intros k t; cbn [glue e_run]; destruct (Nat.ltb k n); auto|]. intros NF. destruct (A2 NF) as [A3 A4]. destruct (B2 NF) as [B3 B4].
  split; [|exact A4]. intros k. cbn [glue e_tmp e_create e_write]. destruct (Nat.ltb k n); auto.
Qed.
Lemma glue_low : forall n E1 E2 j, (j < n)%nat -> same_at j E1 (glue n E1 E2).
Proof. intros n E1 E2 j L. apply Nat.ltb_lt in L. unfold same_at. cbn [glue e_tmp e_create e_write e_run]. now rewrite L. Qed.
Lemma glue_high : forall n E1 E2 j, (n <= j)%nat -> same_at j E2 (glue n E1 E2).
Proof. intros n E1 E2 j L. apply Nat.ltb_ge in L. unfold same_at. cbn [glue e_tmp e_create e_write e_run]. now rewrite L. Qed.
Lemma same_trans : forall j E1 E2 E3, same_at j E1 E2 -> same_at j E2 E3 -> same_at j E1 E3.
Proof. intros j E1 E2 E3 (A & B & C & D) (A' & B' & C' & D'). split; [congruence|]. split; [congruence|]. split; intros; [rewrite C|rewrite D]; auto. Qed.

Lemma does_done : forall X k (F : env -> X * solver * ctx) v a, (exists E, allowed E) -> calls a = k -> (forall E, F E = a) -> does k F v (Done a).
Proof. intros X k F v a (E & AE) C H. split; auto. split; [lia|]. exists E. split; auto. Qed.
Lemma does_bind : forall X Y k (F : env -> X * solver * ctx) (G : env -> X * solver * ctx -> Y * solver * ctx) v x f,
  does k F v x -> (forall a v', does (calls a) (fun E => G E a) v' (f a)) -> does k (fun E => G E (F E)) v (pbind x f).
Proof.
  intros X Y k F G v x f H K. apply wp_bind. eapply wp_weaken; [|exact H]. cbn beta. intros v1 a (V1 & L1 & E1 & A1 & S1).
  eapply wp_weaken; [|exact (K a v1)]. cbn beta. intros v2 b (V2 & L2 & E2 & A2 & S2). split; [intros p; now rewrite V2|]. split; [lia|].
  exists (glue (calls a) E1 E2). split; [now apply glue_allowed|]. intros E' S.
  rewrite S1; [apply S2|].
  - intros j J. eapply same_trans; [apply (glue_high (calls a) E1); lia|]. apply S. lia.
  - intros j J. eapply same_trans; [apply (glue_low (calls a) E1 E2); lia|]. apply S. lia.
Qed.

Variable D : string -> run_result.
Hypothesis DR : forall t, runs t (D t).

Lemma wp_writes : forall A (Q : fsys -> A -> Prop) p l k v old, v p = Some old ->
  (forall v', v' p = Some (fold_left append l old) -> (forall p', p' <> p -> v' p' = v p') -> wp v' (k true) Q) ->
  (fails -> forall v' i, (i < length l)%nat -> v' p <> None -> (forall p', p' <> p -> v' p' = v p') -> wp v' (k false) Q) ->
  wp v (writes p l k) Q.
Proof.
  intros A Q p l k. induction l as [|d l IH]; intros v old O H1 H2; cbn [writes wp fold_left].
  - apply H1; auto.
  - exists old. split; auto. split.
    + apply (IH _ (old ++ d)%string).
      * apply upd_same.
      * intros v' V1 V2. apply H1; auto. intros p' NP. rewrite V2 by auto. now apply upd_other.
      * intros F v' i I V1 V2. apply (H2 F v' (S i)); auto; [cbn [length]; lia|]. intros p' NP. rewrite V2 by auto. now apply upd_other.
    + intros F t. apply (H2 F _ 0%nat); [cbn [length]; lia|rewrite upd_same; discriminate|]. intros p' NP. now apply upd_other.
Qed.

Lemma chunks_text : forall f, fold_left append (chunks f) "" = ToBytes f.
Proof.
  intros f. unfold chunks, ToBytes. cbn [fold_left append]. rewrite map_app, fold_left_app.
  assert (G : forall cls b, fold_left append (map (fun cl => clauseToDIMACS cl ++ newline)%string cls) b = fold_left (fun b cl => (b ++ clauseToDIMACS cl ++ newline)%string) cls b).
  { induction cls as [|cl cls IH]; intros b; cbn [map fold_left]; auto. }
  now rewrite !G.
Qed.
Lemma ToFile_fails : forall wok f i, (i < length (chunks f))%nat -> wok i = false -> ToFile true wok f = Err io_error.
Proof.
  intros wok f i I N. destruct (ToFile_cases true wok f) as [(e & H)|(_ & H & _)].
  - rewrite H. unfold ToFile in H. destruct (wok 0%nat); [|congruence]. destruct (write_clauses wok 1 _ _) as [[k g]|]; [|congruence]. destruct (write_clauses wok k _ _) as [[k2 g2]|]; congruence.
  - rewrite H in N; [discriminate|]. unfold chunks in I. cbn [length] in I. rewrite map_length, app_length in I. lia.
Qed.

(* The environments of the possible runs of one Step. *)
Definition env_run (r : string -> run_result) : env := mkEnv (fun _ => true) (fun _ => true) (fun _ _ => true) (fun _ => r) true.
Definition env_fail (tmp create : bool) (i : nat) : env := mkEnv (fun _ => tmp) (fun _ => create) (fun _ j => negb (Nat.eqb j i)) (fun _ => D) tmp.
Lemma fail_allowed : forall tmp create i, fails -> allowed (env_fail tmp create i).
Proof. intros tmp create i F. split; [intros k t; apply DR|]. intros NF. now elim NF. Qed.
Lemma run_allowed : forall r, (forall t, runs t (r t)) -> allowed (env_run r).
Proof. intros r R. split; [intros k t; apply R|]. intros _. split; auto. Qed.
Lemma some_allowed : exists E, allowed E.
Proof. exists (env_run D). apply run_allowed, DR. Qed.

Lemma back : forall (v : fsys) p v', v p = None -> v' p <> None -> (forall p', p' <> p -> v' p' = v p') -> forall p', upd v' p None p' = v p'.
Proof. intros v p v' N _ O p'. destruct (string_dec p' p) as [->|NP]; [now rewrite upd_same|]. rewrite upd_other by auto. auto. Qed.

Lemma Step_same : forall q s c E E', same_at (bs_calls s) E E' -> Step E' q s c = Step E q s c.
Proof.
  intros q s c E E' (S1 & S2 & S3 & S4). unfold Step. rewrite <- S1, <- S2. destruct (negb _); auto. destruct (enc q c) as [[f|e| |] c1]; auto.
  assert (TF : ToFile (e_create E (bs_calls s)) (e_write E' (bs_calls s)) f = ToFile (e_create E (bs_calls s)) (e_write E (bs_calls s)) f).
  { unfold ToFile. destruct (e_create E (bs_calls s)); auto. rewrite <- S3.
    assert (G : forall cls k g, write_clauses (e_write E' (bs_calls s)) k g cls = write_clauses (e_write E (bs_calls s)) k g cls).
    { induction cls as [|cl cls IH]; intros k g; cbn [write_clauses]; auto. rewrite <- S3. now rewrite IH. }
    rewrite G. destruct (e_write E (bs_calls s) 0%nat); auto. destruct (write_clauses _ _ _ (sClauses f)) as [[k g]|]; auto. now rewrite G. }
  rewrite TF. clear TF. destruct (ToFile _ _ f); auto. now rewrite <- S4.
Qed.

Lemma does_Step : forall q s c v, does (bs_calls s) (fun E => Step E q s c) v (StepP q s c).
Proof.
  intros q s c v. unfold does, StepP. cbn [wp]. split.
  - intros F. split; auto. split; [cbn; lia|]. exists (env_fail false true 0). split; [now apply fail_allowed|]. intros E' S.
    rewrite (Step_same q s c (env_fail false true 0)); [|apply S; unfold calls; cbn; lia]. reflexivity.
  - intros p N. set (v1 := upd v p (Some "")).
    assert (V1 : v1 p <> None) by (unfold v1; rewrite upd_same; discriminate).
    assert (O1 : forall p', p' <> p -> v1 p' = v p') by (intros; now apply upd_other).
    assert (LV : forall v' (a : sres * solver * ctx), v' p <> None -> (forall p', p' <> p -> v' p' = v p') -> calls a = S (bs_calls s) ->
       (exists E, allowed E /\ Step E q s c = a) ->
       wp v' (PRemove p (Done a)) (fun v' a => (forall p, v' p = v p) /\ (bs_calls s <= calls a)%nat /\ exists E, allowed E /\ forall E', same_on (bs_calls s) (calls a) E E' -> Step E' q s c = a)).
    { intros v' a X1 X2 X3 (E & X4 & X5). cbn [wp]. split; auto. split; [now apply back|]. rewrite X3. split; [lia|]. exists E. split; auto.
      intros E' S. rewrite <- X5. apply Step_same, S. lia. }
    destruct (enc q c) as [[f|e| |] c1] eqn:EN; cbn [wp].
    + split; [exact V1|]. split.
      * apply (wp_writes _ _ p (chunks f) _ _ ""); [apply upd_same| |].
        -- rewrite chunks_text. intros v' X1 X2. cbn [wp]. exists (ToBytes f). split; auto. intros r R.
           assert (X3 : forall p', p' <> p -> v' p' = v p') by (intros p' NP; rewrite X2 by auto; rewrite upd_other by auto; auto).
           set (rr := fun t => if String.eqb t (ToBytes f) then r else D t).
           assert (ST : Step (env_run rr) q s c = match runSolver r with
                          | Err e => (SErr e, mkSolver (bs_output s) (S (bs_calls s)), c1) | Panic => (SPanic, mkSolver (bs_output s) (S (bs_calls s)), c1) | Hang => (SHang, mkSolver (bs_output s) (S (bs_calls s)), c1)
                          | Ok (code, out) => if (code =? 20)%Z then (SUnsat, mkSolver (bs_output s) (S (bs_calls s)), c1) else (SSat, mkSolver out (S (bs_calls s)), c1) end).
           { unfold Step. cbn [env_run e_tmp e_create negb]. rewrite EN. rewrite ToFile_ok by (intros i _; reflexivity). cbn [e_run env_run]. unfold rr. cbn beta. now rewrite String.eqb_refl. }
           assert (AL : allowed (env_run rr)).
           { apply run_allowed. intros t. unfold rr. destruct (String.eqb_spec t (ToBytes f)) as [->|]; auto. }
           destruct (runSolver r) as [[code out]|e| |]; [destruct (code =? 20)%Z| | |exact Logic.I]; apply LV; auto; try congruence; eauto.
        -- intros F v' i I X1 X2. apply LV; auto.
           ++ intros p' NP. rewrite X2 by auto. rewrite upd_other; auto.
           ++ exists (env_fail true true i). split; [now apply fail_allowed|]. unfold Step. cbn [env_fail e_tmp e_create negb]. rewrite EN.
              cbn [e_write]. rewrite (ToFile_fails _ f i I) by (cbn [env_fail e_write]; now rewrite Nat.eqb_refl). reflexivity.
      * intros F. apply LV; auto. exists (env_fail true false 0). split; [now apply fail_allowed|]. unfold Step. cbn [env_fail e_tmp e_create negb]. rewrite EN. reflexivity.
    + apply LV; auto. exists (env_run D). split; [apply run_allowed, DR|]. unfold Step. cbn [env_run e_tmp negb]. now rewrite EN.
    + apply LV; auto. exists (env_run D). split; [apply run_allowed, DR|]. unfold Step. cbn [env_run e_tmp negb]. now rewrite EN.
    + exact Logic.I.
Qed.

Lemma does_ext : forall X k (F G : env -> X * solver * ctx) v x, (forall E, F E = G E) -> does k F v x -> does k G v x.
Proof. intros X k F G v x H W. eapply wp_weaken; [|exact W]. cbn beta. intros v' a (A & B & E & C & K). split; auto. split; auto. exists E. split; auto. intros E' S. rewrite <- H. auto. Qed.
Lemma does_ret : forall X (r : X) s c v, does (bs_calls s) (fun _ => (r, s, c)) v (Done (r, s, c)).
Proof. intros. apply does_done; auto. apply some_allowed. Qed.

Lemma after_atom : forall (negated : bool) (a : sres * solver * ctx) v', does (calls a)
  (fun _ => match a with (SSat, s, c) => (Ok (negb negated), s, c) | (SUnsat, s, c) => (Ok negated, s, c) | (SErr e, s, c) => (Err e, s, c) | (SPanic, s, c) => (Panic, s, c) | (SHang, s, c) => (Hang, s, c) end) v'
  (match a with (SSat, s, c) => Done (Ok (negb negated), s, c) | (SUnsat, s, c) => Done (Ok negated, s, c) | (SErr e, s, c) => Done (Err e, s, c) | (SPanic, s, c) => Done (Panic, s, c) | (SHang, s, c) => PHang end).
Proof. intros negated [[[| |e| |] s'] c'] v'; try apply (does_ret _ _ s' c'). exact Logic.I. Qed.
Lemma does_comb : forall k s c v, does (bs_calls s) (fun E => CombSat E k s c) v (CombSatP k s c).
Proof.
  fix IH 1. intros k. destruct k as [|q negated|l|l].
  - intros s c v. apply does_ret.
  - intros s c v. exact (does_bind _ _ (bs_calls s) (fun E => Step E q s c)
      (fun E x => match x with (SSat, s, c) => (Ok (negb negated), s, c) | (SUnsat, s, c) => (Ok negated, s, c) | (SErr e, s, c) => (Err e, s, c) | (SPanic, s, c) => (Panic, s, c) | (SHang, s, c) => (Hang, s, c) end) v _ _
      (does_Step q s c v) (after_atom negated)).
  - induction l as [|e l IHl]; intros s c v; [apply does_ret|].
    refine (does_bind _ _ (bs_calls s) (fun E => CombSat E e s c) (fun E x => match x with (Ok true, s, c) => CombSat E (CAnd l) s c | (Ok false, s, c) => (Ok false, s, c) | (Err e, s, c) => (Err e, s, c) | (Panic, s, c) => (Panic, s, c) | (Hang, s, c) => (Hang, s, c) end) v (CombSatP e s c)
      (fun x => match x with (Ok true, s, c) => CombSatP (CAnd l) s c | other => Done other end) (IH e s c v) _).
    intros [[[[]|er| |] s'] c'] v'; try apply (does_ret _ _ s' c'). apply IHl.
  - induction l as [|e l IHl]; intros s c v; [apply does_ret|].
    refine (does_bind _ _ (bs_calls s) (fun E => CombSat E e s c) (fun E x => match x with (Ok false, s, c) => CombSat E (COr l) s c | (Ok true, s, c) => (Ok true, s, c) | (Err e, s, c) => (Err e, s, c) | (Panic, s, c) => (Panic, s, c) | (Hang, s, c) => (Hang, s, c) end) v (CombSatP e s c)
      (fun x => match x with (Ok false, s, c) => CombSatP (COr l) s c | other => Done other end) (IH e s c v) _).
    intros [[[[]|er| |] s'] c'] v'; try apply (does_ret _ _ s' c'). apply IHl.
Qed.

Lemma does_loop : forall fuel fg og u s c steps v, does (bs_calls s) (fun E => opt_loop fuel E fg og u s c steps) v (opt_loopP fuel fg og u s c steps).
Proof.
  induction fuel as [|fuel IH]; intros fg og u s c steps v; cbn [opt_loop opt_loopP]; [exact Logic.I|].
  destruct (Values (bs_output s) [u] c) as [[[|bm ks]|e| |] c1]; try apply (does_ret _ _ s c1); [|exact Logic.I].
  eapply does_bind with (G := fun E x => match x with (SSat, s, c) => opt_loop fuel E fg og u s c (steps + 1)%Z | (SUnsat, s, c) => (Ok (mkOpt true bm (steps + 1)%Z), s, c) | (SErr e, s, c) => (Err e, s, c) | (SPanic, s, c) => (Panic, s, c) | (SHang, s, c) => (Hang, s, c) end).
  - apply does_Step.
  - intros [[[| |e| |] s'] c'] v'; try apply (does_ret _ _ s' c'); [apply IH|exact Logic.I].
Qed.

Definition with_opttmp (E : env) (b : bool) : env := mkEnv (e_tmp E) (e_create E) (e_write E) (e_run E) b.
Lemma same_opttmp : forall j E b, same_at j E (with_opttmp E b).
Proof. intros j E b. unfold same_at. cbn. auto. Qed.

Lemma does_optim : forall fuel fg og u c s v,
  wp v (ComputeOptimP fuel fg og u c s) (fun v' a => (forall p, v' p = v p) /\ exists E, allowed E /\ ComputeOptim fuel E fg og u c s = a).
Proof.
  intros fuel fg og u c s v. unfold ComputeOptimP. cbn [wp]. split.
  - intros F. split; auto. exists (env_fail false true 0). split; [now apply fail_allowed|]. reflexivity.
  - intros p N. apply wp_bind.
    assert (W : does (bs_calls s) (fun E => match Step E (QWith u (fg u)) s c with (SSat, s, c) => opt_loop fuel E fg og u s c 1 | (SUnsat, s, c) => (Ok (mkOpt false (mkQConst "" []) 1), s, c) | (SErr e, s, c) => (Err e, s, c) | (SPanic, s, c) => (Panic, s, c) | (SHang, s, c) => (Hang, s, c) end)
       (upd v p (Some "")) (pbind (StepP (QWith u (fg u)) s c) (fun x =>
             match x with
             | (SSat, s, c) => opt_loopP fuel fg og u s c 1
             | (SUnsat, s, c) => Done (Ok (mkOpt false (mkQConst "" []) 1), s, c)
             | (SErr e, s, c) => Done (Err e, s, c)
             | (SPanic, s, c) => Done (Panic, s, c)
             | (SHang, s, c) => PHang
             end))).
    { eapply does_bind with (G := fun E x => match x with (SSat, s, c) => opt_loop fuel E fg og u s c 1 | (SUnsat, s, c) => (Ok (mkOpt false (mkQConst "" []) 1), s, c) | (SErr e, s, c) => (Err e, s, c) | (SPanic, s, c) => (Panic, s, c) | (SHang, s, c) => (Hang, s, c) end); [apply does_Step|].
      intros [[[| |e| |] s'] c'] v'; try apply (does_ret _ _ s' c'); [apply does_loop|exact Logic.I]. }
    eapply wp_weaken; [|exact W]. cbn beta. intros v' a (V & _ & E & A & K). cbn [wp]. split; [rewrite V, upd_same; discriminate|]. split.
    + intros p'. destruct (string_dec p' p) as [->|NP]; [now rewrite upd_same|]. rewrite upd_other by auto. rewrite V. now apply upd_other.
    + exists (with_opttmp E true). split.
      * destruct A as [A1 A2]. split; [exact A1|]. intros NF. destruct (A2 NF) as [A3 A4]. split; auto.
      * unfold ComputeOptim. cbn [with_opttmp e_opttmp negb]. apply K. intros j _. apply same_opttmp.
Qed.
End World.
