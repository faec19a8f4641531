(* Property C62: an answer only ever comes from the solver's exit codes 10 and
   20; any other ending of the run is reported as an error. *)
From Verif Require Import GoBase GoLemmas Cnf Query Walk Atoms Logop Compute Run Solver PropContext PropCompute.
Local Open Scope string_scope.
Local Open Scope Z_scope.
Local Open Scope list_scope.

(* The k-th run: the file could be written, holds the encoding of q, and the
   solver started on it ended in r. *)
Definition ran (E : Compute.env) (k : nat) (q : query) (c c' : ctx) (r : run_result) : Prop :=
  e_tmp E k = true /\
  exists f file, enc q c = (Ok f, c') /\ ToFile (e_create E k) (e_write E k) f = Ok file /\ e_run E k file = r.

Ltac step_cases :=
  unfold Step; destruct (e_tmp _ _) eqn:?; cbn [negb];
  [destruct (enc _ _) as [[?f|?e| |] ?c1] eqn:?; [destruct (ToFile _ _ _) as [?file|?e| |] eqn:?|..] |].

Theorem C62_sat : forall E q s c s' c', Step E q s c = (SSat, s', c') <->
  exists out err, ran E (bs_calls s) q c c' (RunExit 10 out err) /\ s' = mkSolver out (S (bs_calls s)).
Proof.
  intros E q s c s' c'. split.
  - step_cases; try discriminate. unfold runSolver. destruct (e_run E (bs_calls s) file) as [code out err|e] eqn:R; [|discriminate].
    destruct (code =? 0) eqn:Z0; [discriminate|]. destruct (code =? 10) eqn:Z1; cbn [negb andb].
    + apply Z.eqb_eq in Z1. subst code. cbn. intros H. injection H as <- <-. exists out, err. split; [|reflexivity]. split; [assumption|]. eauto 6.
    + destruct (code =? 20) eqn:Z2; cbn; [rewrite Z2|]; discriminate.
  - intros (out & err & (T & f & file & EN & TF & R) & ->). unfold Step. now rewrite T, EN, TF, R.
Qed.
Print Assumptions C62_sat.

Theorem C62_unsat : forall E q s c s' c', Step E q s c = (SUnsat, s', c') <->
  exists out err, ran E (bs_calls s) q c c' (RunExit 20 out err) /\ s' = mkSolver (bs_output s) (S (bs_calls s)).
Proof.
  intros E q s c s' c'. split.
  - step_cases; try discriminate. unfold runSolver. destruct (e_run E (bs_calls s) file) as [code out err|e] eqn:R; [|discriminate].
    destruct (code =? 0) eqn:Z0; [discriminate|]. destruct (code =? 20) eqn:Z2.
    + apply Z.eqb_eq in Z2. subst code. cbn. intros H. injection H as <- <-. exists out, err. split; [|reflexivity]. split; [assumption|]. eauto 6.
    + destruct (code =? 10); cbn [negb andb]; [rewrite Z2|]; cbn; discriminate.
  - intros (out & err & (T & f & file & EN & TF & R) & ->). unfold Step. now rewrite T, EN, TF, R.
Qed.
Print Assumptions C62_unsat.

(* What an ending other than 10 and 20 says; exit code 0 has its own message,
   whatever the solver printed. *)
Inductive failure : run_result -> string -> Prop :=
| FailRun e : failure (RunFail e) e
| FailZero out err : failure (RunExit 0 out err) "Solver exit code could not be recovered"
| FailCode z out err : z <> 0 -> z <> 10 -> z <> 20 -> failure (RunExit z out err) err.

Theorem C62_failed : forall E q s c c' r, ran E (bs_calls s) q c c' r ->
  forall e, failure r e <-> Step E q s c = (SErr e, mkSolver (bs_output s) (S (bs_calls s)), c').
Proof.
  intros E q s c c' r (T & f & file & EN & TF & R) e. unfold Step. rewrite T, EN, TF, R. cbn [negb]. split.
  - intros [e'|out err|z out err N0 N1 N2]; cbn [runSolver]; try reflexivity.
    apply Z.eqb_neq in N0, N1, N2. now rewrite N0, N1, N2.
  - destruct r as [z out err|e']; cbn [runSolver].
    + destruct (z =? 0) eqn:Z0; [apply Z.eqb_eq in Z0; subst; intros H; injection H as <-; constructor|].
      destruct (z =? 10) eqn:Z1; cbn [negb andb].
      { apply Z.eqb_eq in Z1. subst. cbn. discriminate. }
      destruct (z =? 20) eqn:Z2; cbn [negb andb]; [rewrite Z2; discriminate|].
      intros H. injection H as <-. apply Z.eqb_neq in Z0, Z1, Z2. now constructor.
    + intros H. injection H as <-. constructor.
Qed.
Print Assumptions C62_failed.

(* The k-th run ended with exit code z. *)
Definition told (E : Compute.env) (k : nat) (z : Z) : Prop := exists file out err, e_run E k file = RunExit z out err.
Definition answered (E : Compute.env) (k : nat) : Prop := told E k 10 \/ told E k 20.

Lemma Step_calls E q s c r s' c' : Step E q s c = (r, s', c') -> bs_calls s' = S (bs_calls s).
Proof.
  step_cases; try (intros H; injection H as <- <- <-; reflexivity).
  destruct (runSolver _) as [[z out]|e| |]; [destruct (z =? 20)|..]; intros H; now injection H as <- <- <-.
Qed.
Lemma sat_told E q s c s' c' : Step E q s c = (SSat, s', c') -> told E (bs_calls s) 10.
Proof. intros H. apply C62_sat in H as (out & err & (_ & f & file & _ & _ & R) & _). now exists file, out, err. Qed.
Lemma unsat_told E q s c s' c' : Step E q s c = (SUnsat, s', c') -> told E (bs_calls s) 20.
Proof. intros H. apply C62_unsat in H as (out & err & (_ & f & file & _ & _ & R) & _). now exists file, out, err. Qed.

(* A boolean combination answers only if all its runs did. *)
Definition well (E : Compute.env) (k : comb) : Prop := forall s c b s' c', CombSat E k s c = (Ok b, s', c') ->
  (bs_calls s <= bs_calls s')%nat /\ forall i, (bs_calls s <= i < bs_calls s')%nat -> answered E i.
Theorem C62_combinator : forall E k, well E k.
Proof.
  intros E. fix IH 1. intros [|q neg|l|l] s c b s' c'; cbn [CombSat].
  - discriminate.
  - destruct (Step E q s c) as [[[| |e| |] s1] c1] eqn:ST; intros H; try discriminate; injection H as <- <- <-;
      rewrite (Step_calls _ _ _ _ _ _ _ ST); (split; [lia|]); intros i Hi; assert (i = bs_calls s) as -> by lia.
    + left. eapply sat_told. eassumption.
    + right. eapply unsat_told. eassumption.
  - revert s c. induction l as [|e r IHl]; intros s c; [intros H; injection H as <- <- <-; split; lia|].
    destruct (CombSat E e s c) as [[o s1] c1] eqn:CE. pose proof (IH e s c) as W.
    destruct o as [[|]|x| |]; try discriminate.
    + intros H. apply IHl in H as [L H]. destruct (W _ _ _ CE) as [L1 H1]. split; [lia|].
      intros i Hi. destruct (Nat.lt_ge_cases i (bs_calls s1)); [apply H1|apply H]; lia.
    + intros H. injection H as <- <- <-. exact (W _ _ _ CE).
  - revert s c. induction l as [|e r IHl]; intros s c; [intros H; injection H as <- <- <-; split; lia|].
    destruct (CombSat E e s c) as [[o s1] c1] eqn:CE. pose proof (IH e s c) as W.
    destruct o as [[|]|x| |]; try discriminate.
    + intros H. injection H as <- <- <-. exact (W _ _ _ CE).
    + intros H. apply IHl in H as [L H]. destruct (W _ _ _ CE) as [L1 H1]. split; [lia|].
      intros i Hi. destruct (Nat.lt_ge_cases i (bs_calls s1)); [apply H1|apply H]; lia.
Qed.
Print Assumptions C62_combinator.

(* ComputeOptim gives a value, or says there is none, only if every run but
   the last ended with 10 and the last with 20; Calls counts the runs. *)
Theorem C62_optimum : forall fuel E fg og v c s o s' c', e_opttmp E = true ->
  ComputeOptim fuel E fg og v c s = (Ok o, s', c') ->
  Z.of_nat (bs_calls s') = Z.of_nat (bs_calls s) + oCalls o /\
  (forall i, (bs_calls s <= i)%nat -> (S i < bs_calls s')%nat -> told E i 10) /\
  told E (Nat.pred (bs_calls s')) 20 /\
  (oFound o = false <-> oCalls o = 1).
Proof.
  intros fuel E fg og v c s o s' c' T. unfold ComputeOptim. rewrite T. cbn [negb].
  destruct (Step E (QWith v (fg v)) s c) as [[[| |e| |] s1] c1] eqn:ST; intros H; try discriminate.
  - pose proof (Step_calls _ _ _ _ _ _ _ ST) as K1. apply sat_told in ST.
    assert (L : forall fuel s1 c1 n, (1 <= n)%nat -> bs_calls s1 = (bs_calls s + n)%nat ->
      (forall i, (bs_calls s <= i < bs_calls s1)%nat -> told E i 10) ->
      opt_loop fuel E fg og v s1 c1 (Z.of_nat n) = (Ok o, s', c') ->
      exists n', (n < n')%nat /\ bs_calls s' = (bs_calls s + n')%nat /\ oCalls o = Z.of_nat n' /\ oFound o = true /\
        (forall i, (bs_calls s <= i)%nat -> (S i < bs_calls s')%nat -> told E i 10) /\ told E (Nat.pred (bs_calls s')) 20).
    { clear. intros fuel. induction fuel as [|fuel IH]; intros s1 c1 n Hn K B; cbn [opt_loop]; [discriminate|].
      destruct (Values _ _ _) as [[[|bm vs]|e| |] c2]; try discriminate.
      destruct (Step E _ s1 (CtxReset c2)) as [[[| |e| |] s2] c3] eqn:ST; intros H; try discriminate.
      - pose proof (Step_calls _ _ _ _ _ _ _ ST) as K2. apply sat_told in ST.
        replace (Z.of_nat n + 1) with (Z.of_nat (S n)) in H by lia.
        apply IH in H as (n' & H1 & H2 & H3); [exists n'; split; [lia|]; split; [exact H2 | exact H3] | lia | lia |].
        intros i Hi. destruct (Nat.eq_dec i (bs_calls s1)) as [->|]; [exact ST | apply B; lia].
      - pose proof (Step_calls _ _ _ _ _ _ _ ST) as K2. apply unsat_told in ST. injection H as <- <- <-. cbn [oCalls oFound].
        exists (S n). split; [lia|]. split; [lia|]. split; [lia|]. split; [reflexivity|]. split.
        + intros i H1 H2. apply B. lia.
        + now rewrite K2. }
    apply L with (n := 1%nat) in H as (n' & H1 & H2 & H3 & H4 & H5 & H6); [|lia|lia|].
    + rewrite H3, H4. split; [lia|]. split; [exact H5|]. split; [exact H6|]. split; [discriminate|lia].
    + intros i Hi. assert (i = bs_calls s) as -> by lia. exact ST.
  - pose proof (Step_calls _ _ _ _ _ _ _ ST) as K1. apply unsat_told in ST. injection H as <- <- <-. cbn [oCalls oFound].
    rewrite K1. split; [lia|]. split; [intros i; lia|]. split; [exact ST|]. split; reflexivity.
Qed.
Print Assumptions C62_optimum.

(* The condition on the temporary file is needed: compute/optimum.go:50-52
   returns the zero result and no error, though there is an optimum. *)
Definition full_disk : Compute.env := mkEnv (e_tmp ideal) (e_create ideal) (e_write ideal) (e_run ideal) false.
Theorem C62_no_file_refuted : exists (fg : QVar -> query) (og : QVar -> QConst -> query) v m o s1 c1,
  ComputeOptim 9 ideal fg og v (BasicQContext m) (mkSolver "" 0) = (Ok o, s1, c1) /\ oFound o = true /\
  ComputeOptim 9 full_disk fg og v (BasicQContext m) (mkSolver "" 0) = (Ok (mkOpt false (mkQConst "" []) 0), mkSolver "" 0, BasicQContext m).
Proof.
  exists (fun v => QAtom (FullV v)), (fun v k => QNot (QAtom (FullV v))), "x", (mkModel 1 []).
  destruct (ComputeOptim 9 ideal (fun v => QAtom (FullV v)) (fun v k => QNot (QAtom (FullV v))) "x" (BasicQContext (mkModel 1 [])) (mkSolver "" 0)) as [[r s1] c1] eqn:EQ.
  assert (X : match r with Ok o => oFound o | _ => false end = true).
  { apply (f_equal (fun x => match fst (fst x) with Ok o => oFound o | _ => false end)) in EQ. cbn [fst] in EQ. rewrite <- EQ. vm_compute. reflexivity. }
  destruct r as [o|e| |]; [|discriminate X..]. exists o, s1, c1. split; [reflexivity|]. split; [exact X|reflexivity].
Qed.
Print Assumptions C62_no_file_refuted.

(* A solver that prints an answer but exits with 0, one that is killed, and a
   missing one; a verified one is in C26_case. *)
Definition saying (r : run_result) : Compute.env :=
  mkEnv (fun _ => true) (fun _ => true) (fun _ _ => true) (fun _ _ => r) true.
Example C62_case :
  fst (fst (Step (saying (RunExit 0 "s SATISFIABLE" "")) sample (mkSolver "v 1 0" 3) (BasicQContext stump))) = SErr "Solver exit code could not be recovered" /\
  fst (fst (CombSat (saying (RunExit (-1) "" "killed")) (COr [CAtom sample true; CAtom sample false]) (mkSolver "" 0) (BasicQContext stump))) = Err "killed" /\
  fst (fst (ComputeOptim 5 (saying (RunFail "no such file")) (fun v => sample) (fun v k => sample) "x" (BasicQContext stump) (mkSolver "" 0))) = Err "no such file" /\
  fst (fst (CombSat ideal (CAtom sample true) (mkSolver "" 0) (BasicQContext stump))) = Ok false.
Proof.
  destruct (C26_case (mkSolver "" 0)) as (s' & c' & H). rewrite H.
  split; [vm_compute; reflexivity|]. split; [vm_compute; reflexivity|]. split; vm_compute; reflexivity.
Qed.
