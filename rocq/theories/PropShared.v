(* Properties C34 (where it does hold) and C47: several queries, one context. *)
From Verif Require Import GoBase GoLemmas Cnf Query Walk Atoms Logop Spec Meaning Truth CnfSem QueryLemmas Sym AtomBase TreeLemmas WalkLemmas AtomMain Form Master Block Ground Sat AtomCnf Evolve Outcome Names FirstOrder Answer Solver Dimacs Compute Run PropContext PropTruth PropCompute Optim PropOptim PropSize PropRefuted PropExamples Shared.
Local Open Scope string_scope.
Local Open Scope Z_scope.
Local Open Scope list_scope.

(* ---- C34: a context that was reset ---- *)

(* Contexts reached by evaluating combinations, optimising, reading values and
   resetting, with any queries, solvers and answers. *)
Inductive session (m : model) : ctx -> Prop :=
| Session_new : session m (BasicQContext m)
| Session_sat : forall E k s c r s' c', session m c -> CombSat E k s c = (r, s', c') -> r <> Hang -> session m c'
| Session_optim : forall fuel E fg og v s c r s' c', session m c -> ComputeOptim fuel E fg og v c s = (r, s', c') -> r <> Hang -> session m c'
| Session_values : forall out vars c r c', session m c -> Values out vars c = (r, c') -> session m c'
| Session_reset : forall c, session m c -> session m (CtxReset c).

Definition idle (m : model) (c : ctx) : Prop := cScoper c = S0 /\ cModel c = m /\ vm_inv (cVM c).

Lemma idle_enc : forall m q c r c', idle m c -> enc q c = (r, c') -> r <> Hang -> idle m c'.
Proof.
  intros m q [s vm m'] r c' (A & B & I) E N. cbn in A, B, I. subst s m'. destruct (enc_scoper q m vm r c' I E N) as [X Y]. split; auto. split; auto.
  destruct (safe_enc q (mkCtx S0 vm m) r c') as [V _]; auto; [split; [exact I|apply sc_inv_init]|exact Logic.I|]. apply (ev_good _ _ V).
Qed.
Lemma idle_Step : forall m E q s c r s' c', idle m c -> Step E q s c = (r, s', c') -> r <> SHang -> idle m c'.
Proof.
  intros m E q s c r s' c' I H N. unfold Step in H. destruct (negb (e_tmp E (bs_calls s))); [now injection H as <- <- <-|].
  destruct (enc q c) as [[f|e| |] c1] eqn:EN.
  - assert (I1 : idle m c1) by (apply (idle_enc m q c _ c1 I EN); discriminate).
    destruct (ToFile _ _ f) as [file|e| |]; try (now injection H as <- <- <-).
    destruct (runSolver _) as [[code out]|e| |]; try (now injection H as <- <- <-). destruct (code =? 20); now injection H as <- <- <-.
  - injection H as <- <- <-. apply (idle_enc m q c _ c1 I EN). discriminate.
  - injection H as <- <- <-. apply (idle_enc m q c _ c1 I EN). discriminate.
  - injection H as <- <- <-. now elim N.
Qed.
Lemma inv_CNFVar : forall vm u, vm_inv vm -> vm_inv (snd (CNFVar vm u)).
Proof. intros vm u I. destruct (CNFVar vm u) as [n vm'] eqn:E. now apply (CNFVar_spec _ _ _ _ I E). Qed.
Lemma inv_filter : forall d v vm, vm_inv vm -> vm_inv (snd (variableFilter vm d v)).
Proof.
  intros d v vm I. unfold variableFilter. set (f := fun acc i => _).
  assert (G : forall l a, vm_inv (snd a) -> vm_inv (snd (fold_left f l a))).
  { induction l as [|i l IH]; intros [fl vm1] J; cbn [fold_left]; auto. apply IH. unfold f. cbn [snd] in J.
    pose proof (inv_CNFVar vm1 (v, i, BOT) J) as J1. destruct (CNFVar vm1 (v, i, BOT)) as [n1 vm2]. cbn [snd] in J1.
    pose proof (inv_CNFVar vm2 (v, i, ZERO) J1) as J2. destruct (CNFVar vm2 (v, i, ZERO)) as [n2 vm3]. cbn [snd] in J2.
    pose proof (inv_CNFVar vm3 (v, i, ONE) J2) as J3. destruct (CNFVar vm3 (v, i, ONE)) as [n3 vm4]. exact J3. }
  apply G. exact I.
Qed.
Lemma inv_read : forall d v b vm, vm_inv vm -> vm_inv (snd (read_value vm d v b)).
Proof.
  intros d v b vm I. unfold read_value. set (f := fun acc i => _).
  assert (G : forall l a, vm_inv (snd a) -> vm_inv (snd (fold_left f l a))).
  { induction l as [|i l IH]; intros [fl vm1] J; cbn [fold_left]; auto. apply IH. unfold f. cbn [snd] in J.
    pose proof (inv_CNFVar vm1 (v, i, BOT) J) as J1. destruct (CNFVar vm1 (v, i, BOT)) as [n1 vm2]. cbn [snd] in J1. destruct (bget b n1); [exact J1|].
    pose proof (inv_CNFVar vm2 (v, i, ONE) J1) as J2. destruct (CNFVar vm2 (v, i, ONE)) as [n2 vm3]. cbn [snd] in J2. destruct (bget b n2); [exact J2|].
    pose proof (inv_CNFVar vm3 (v, i, ZERO) J2) as J3. destruct (CNFVar vm3 (v, i, ZERO)) as [n3 vm4]. destruct (bget b n3); exact J3. }
  apply G. exact I.
Qed.
Lemma idle_Value : forall m out v c r c', idle m c -> varValueFromBytes out v c = (r, c') -> idle m c'.
Proof.
  intros m out v [s vm m'] r c' (A & B & I) H. cbn in A, B, I. subst s m'. unfold varValueFromBytes in H. cbn [cVM cModel] in H.
  pose proof (inv_filter (Dim m) v vm I) as J. destruct (variableFilter vm (Dim m) v) as [fl vm1]. cbn [snd] in J.
  destruct (parse_lines fl _ _) as [b|e| |]; try (injection H as <- <-; split; [reflexivity|split; [reflexivity|exact J]]).
  pose proof (inv_read (Dim m) v b vm1 J) as K. destruct (read_value vm1 (Dim m) v b) as [val vm2]. injection H as <- <-. split; [reflexivity|split; [reflexivity|exact K]].
Qed.
Lemma idle_Values : forall m out vars c r c', idle m c -> Values out vars c = (r, c') -> idle m c'.
Proof.
  intros m out vars. induction vars as [|v vars IH]; intros c r c' I H; cbn [Values] in H; [now injection H as <- <-|].
  destruct (varValueFromBytes out v c) as [[k|e| |] c1] eqn:E; pose proof (idle_Value m out v c _ c1 I E) as I1; try (now injection H as <- <-).
  destruct (Values out vars c1) as [[ks|e| |] c2] eqn:E2; pose proof (IH c1 _ c2 I1 E2) as I2; now injection H as <- <-.
Qed.
Lemma idle_reset : forall m c, cScoper c = S0 -> cModel c = m -> CtxReset c = BasicQContext m.
Proof. intros m [s vm m'] A B. cbn in A, B. subst s m'. reflexivity. Qed.
Lemma idle_basic : forall m, idle m (BasicQContext m).
Proof. intros m. split; auto. split; auto. apply vm_inv_init. Qed.

Lemma comb_rect' : forall P : comb -> Prop, P CNil -> (forall q b, P (CAtom q b)) -> (forall l, Forall P l -> P (CAnd l)) -> (forall l, Forall P l -> P (COr l)) -> forall k, P k.
Proof.
  intros P H0 H1 H2 H3. fix F 1. intros [|q b|l|l]; [apply H0|apply H1| |].
  - apply H2. induction l as [|k l IH]; constructor; auto.
  - apply H3. induction l as [|k l IH]; constructor; auto.
Qed.
Lemma idle_CombSat : forall m E k s c r s' c', idle m c -> CombSat E k s c = (r, s', c') -> r <> Hang -> idle m c'.
Proof.
  intros m E. induction k as [|q b|l IH|l IH] using comb_rect'; intros s c r s' c' I H N.
  - cbn in H. now injection H as <- <- <-.
  - cbn [CombSat] in H. destruct (Step E q s c) as [[r1 s1] c1] eqn:ST.
    destruct r1; injection H as <- <- <-; try (apply (idle_Step m E q s c _ s1 c1 I ST); discriminate). now elim N.
  - revert s c I H. induction l as [|k l IHl]; intros s c I H; [cbn in H; now injection H as <- <- <-|].
    inversion IH as [|? ? IH1 IH2]; subst. cbn [CombSat] in H. destruct (CombSat E k s c) as [[[[|]|e| |] s1] c1] eqn:K;
      try (injection H as <- <- <-; apply (IH1 s c _ s1 c1 I K); discriminate); [|injection H as <- <- <-; now elim N].
    apply (IHl IH2 s1 c1); auto. apply (IH1 s c _ s1 c1 I K). discriminate.
  - revert s c I H. induction l as [|k l IHl]; intros s c I H; [cbn in H; now injection H as <- <- <-|].
    inversion IH as [|? ? IH1 IH2]; subst. cbn [CombSat] in H. destruct (CombSat E k s c) as [[[[|]|e| |] s1] c1] eqn:K;
      try (injection H as <- <- <-; apply (IH1 s c _ s1 c1 I K); discriminate); [|injection H as <- <- <-; now elim N].
    apply (IHl IH2 s1 c1); auto. apply (IH1 s c _ s1 c1 I K). discriminate.
Qed.
Lemma idle_loop : forall m E fg og v fuel s c n r s' c', idle m c -> opt_loop fuel E fg og v s c n = (r, s', c') -> r <> Hang -> idle m c'.
Proof.
  intros m E fg og v. induction fuel as [|fuel IH]; intros s c n r s' c' I H N; cbn [opt_loop] in H; [injection H as <- <- <-; now elim N|].
  destruct (Values (bs_output s) [v] c) as [[l|e| |] c1] eqn:EV; pose proof (idle_Values m _ _ c _ c1 I EV) as I1; try (now injection H as <- <- <-).
  destruct l as [|bm l]; [now injection H as <- <- <-|].
  assert (I2 : idle m (CtxReset c1)) by (rewrite (idle_reset m c1); [apply idle_basic|apply I1|apply I1]).
  destruct (Step E _ s (CtxReset c1)) as [[r1 s1] c2] eqn:ST.
  destruct r1; try (injection H as <- <- <-; try (apply (idle_Step m E _ _ _ _ _ _ I2 ST); discriminate); now elim N).
  apply (IH s1 c2 (n + 1) r s' c'); auto. apply (idle_Step m E _ _ _ _ _ _ I2 ST). discriminate.
Qed.
Lemma idle_optim : forall m fuel E fg og v s c r s' c', idle m c -> ComputeOptim fuel E fg og v c s = (r, s', c') -> r <> Hang -> idle m c'.
Proof.
  intros m fuel E fg og v s c r s' c' I H N. unfold ComputeOptim in H. destruct (negb (e_opttmp E)); [now injection H as <- <- <-|].
  destruct (Step E (QWith v (fg v)) s c) as [[r1 s1] c1] eqn:ST.
  destruct r1; try (injection H as <- <- <-; try (apply (idle_Step m E _ _ _ _ _ _ I ST); discriminate); now elim N).
  eapply idle_loop; [|exact H|exact N]. apply (idle_Step m E _ _ _ _ _ _ I ST). discriminate.
Qed.
Lemma session_idle : forall m c, session m c -> idle m c.
Proof.
  intros m c H. induction H as [|E k s c r s' c' _ I H N|fuel E fg og v s c r s' c' _ I H N|out vars c r c' _ I H|c _ I].
  - apply idle_basic.
  - eapply idle_CombSat; eauto.
  - eapply idle_optim; eauto.
  - eapply idle_Values; eauto.
  - rewrite (idle_reset m c); [apply idle_basic|apply I|apply I].
Qed.

(* Whatever was done before, Reset makes the context a new one again, so every
   query evaluated after it gets the right answer, however often. *)
Theorem C34_reset : forall m c, session m c -> CtxReset c = BasicQContext m.
Proof. intros m c H. apply session_idle in H as (A & B & _). now apply idle_reset. Qed.
Print Assumptions C34_reset.
Theorem C34_after_reset : forall E m t q N (negated : bool) s c, (0 < Dim m)%nat -> (has_all q = true -> is_dtree m t) -> wf_query m t q -> tidy N (Dim m) q ->
  fits m q -> files_ok E -> correct_solver E -> session m c ->
  exists b s' c', CombSat E (CAtom q negated) s (CtxReset c) = (Ok b, s', c') /\ session m c' /\
    (b = true <-> if negated then ~ true_query (Dim m) t q else true_query (Dim m) t q).
Proof.
  intros E m t q N b s c Hd HA W T F FO CS S. rewrite (C34_reset m c S). destruct (C26_atom E m t q N b s Hd HA W T F FO CS) as (x & s' & c' & R & X & _).
  exists x, s', c'. split; auto. split; auto. apply (Session_sat m E (CAtom q b) s (BasicQContext m) (Ok x) s'); auto; [constructor|discriminate].
Qed.
Print Assumptions C34_after_reset.

(* ---- C34: ComputeOptim twice in one context ---- *)

(* Instances above both constants. *)
Definition above (c c' : QConst) (v : QVar) : query := QAnd (QAtom (SubsCV c v)) (QAtom (SubsCV c' v)).
Definition other_case : inst := [ONE; ONE; ONE].
Lemma other_valid : valid_inst (Dim opt_tree) other_case.
Proof. exact (small_valid other_case eq_refl). Qed.
Lemma above_problem : problem opt_tree opt_shape ex_naming (above (mkQConst "" opt_case) (mkQConst "" other_case)) strictSubsumption "x".
Proof.
  pose proof opt_valid as V0. pose proof other_valid as V1. revert V0 V1. generalize opt_case other_case. intros c c' V0 V1.
  assert (IX : incl ["x"] ["x"]) by apply incl_refl. assert (IN : incl [] ["x"]) by (intros v []). pose proof opt_is_dtree as DT. constructor; [simpl; lia|exact DT| | |].
  - split; [|split].
    + constructor; [cbn; tauto|cbn; tauto|cbn; tauto|split; [subs_ok V0|subs_ok V1]|split; repeat constructor].
    + apply ex_tidy; auto; [simpl; lia|repeat constructor|repeat constructor; auto].
    + apply C44_fits. vm_compute. reflexivity.
  - intros e V. cbv zeta. split; [|split].
    + constructor; [cbn; tauto|cbn; tauto|cbn; tauto|split; [split; [subs_ok V0|subs_ok V1]|split; subs_ok V]|split; repeat constructor].
    + apply ex_tidy; auto; [simpl; lia|repeat constructor|repeat constructor; auto].
    + apply C44_fits. vm_compute. reflexivity.
  - intros e w _ _ [].
Qed.

Lemma above_none : forall e, ~ satisfies (Dim opt_tree) opt_shape "x" (above (mkQConst "" opt_case) (mkQConst "" other_case) "x") e.
Proof.
  intros e (E & _ & _ & A & B). cbn in A, B. assert (R : in_range 3 0) by (unfold in_range; lia). specialize (A 0 R). specialize (B 0 R).
  change (ZERO = BOT \/ ZERO = feat (E "x") 0) in A. change (ONE = BOT \/ ONE = feat (E "x") 0) in B. unfold BOT, ZERO, ONE in A, B. lia.
Qed.
Definition run_twice : Prop := let fg := above (mkQConst "" opt_case) (mkQConst "" other_case) in
  let '(r1, s1, c1) := ComputeOptim 27 ideal fg strictSubsumption "x" (BasicQContext opt_tree) fresh_solver in
  let '(r2, _, _) := ComputeOptim 27 ideal fg strictSubsumption "x" c1 s1 in
  r1 = Ok (mkOpt false (mkQConst "" []) 1) /\ match r2 with Ok out => oFound out | _ => false end = true.
Lemma twice : run_twice.
Proof. vm_compute. split; reflexivity. Qed.
(* No instance satisfies the formula.  The first call says so; the second one
   returns an instance. *)
Theorem C34_optim_refuted : exists E m t N fg og v fuel s s1 c1 out s2 c2,
  files_ok E /\ correct_solver E /\ e_opttmp E = true /\ problem m t N fg og v /\ (forall e, ~ satisfies (Dim m) t v (fg v) e) /\
  ComputeOptim fuel E fg og v (BasicQContext m) s = (Ok (mkOpt false (mkQConst "" []) 1), s1, c1) /\
  ComputeOptim fuel E fg og v c1 s1 = (Ok out, s2, c2) /\ oFound out = true.
Proof.
  pose proof twice as H. pose proof above_problem as P. pose proof above_none as Q. unfold run_twice in H.
  revert H P Q. generalize (above (mkQConst "" opt_case) (mkQConst "" other_case)). intros fg H P Q.
  destruct (ComputeOptim 27 ideal fg strictSubsumption "x" (BasicQContext opt_tree) fresh_solver) as [[r1 s1] c1] eqn:R1.
  destruct (ComputeOptim 27 ideal fg strictSubsumption "x" c1 s1) as [[r2 s2] c2] eqn:R2.
  destruct H as [-> H]. destruct r2 as [out|e| |]; try discriminate.
  exists ideal, opt_tree, opt_shape, ex_naming, fg, strictSubsumption, "x", 27%nat, fresh_solver, s1, c1, out, s2, c2.
  split; [exact ideal_files|]. split; [exact ideal_correct|]. split; [reflexivity|]. split; [exact P|]. split; [exact Q|]. split; [exact R1|]. split; [exact R2|exact H].
Qed.
Print Assumptions C34_optim_refuted.

(* ---- C47 ---- *)

(* the queries of a combination; a nil element counts as a nil query *)
Fixpoint queries (k : comb) : list query :=
  match k with
  | CNil => [QNil]
  | CAtom q _ => [q]
  | CAnd l | COr l => flat_map queries l
  end.
(* What a combination says. *)
Fixpoint comb_true (d : nat) (t : tree) (k : comb) : Prop :=
  match k with
  | CNil => False
  | CAtom q negated => if negated then ~ true_query d t q else true_query d t q
  | CAnd l => fold_right (fun k P => comb_true d t k /\ P) True l
  | COr l => fold_right (fun k P => comb_true d t k \/ P) False l
  end.

Lemma Step_ctx : forall E q s c f c', files_ok E -> enc q c = (Ok f, c') -> snd (Step E q s c) = c'.
Proof.
  intros E q s c f c' FO EN. unfold Step. destruct (FO (bs_calls s)) as (-> & _ & _). cbn [negb]. rewrite EN.
  destruct (ToFile _ _ f) as [file|e| |]; try reflexivity. destruct (runSolver _) as [[code out]|e| |]; try reflexivity. destruct (code =? 20); reflexivity.
Qed.
Lemma Step_no_hang : forall E q s c f c', enc q c = (Ok f, c') -> fst (fst (Step E q s c)) <> SHang.
Proof.
  intros E q s c f c' EN. unfold Step. destruct (negb _); [discriminate|]. rewrite EN. unfold ToFile.
  destruct (e_create E (bs_calls s)); [|discriminate]. destruct (e_write E (bs_calls s) 0%nat); [|discriminate].
  destruct (write_clauses _ _ _ (sClauses f)) as [[k g]|]; [|discriminate]. destruct (write_clauses _ _ _ (cClauses f)) as [[k' g']|]; [|discriminate].
  unfold runSolver. destruct (e_run E (bs_calls s) g') as [code out er|e]; [|discriminate].
  destruct (code =? 0); [discriminate|]. destruct (negb (code =? 10) && negb (code =? 20)); [discriminate|]. destruct (code =? 20); discriminate.
Qed.

Lemma FOP_app_l : forall (A : Type) (R : A -> A -> Prop) l l', ForallOrdPairs R (l ++ l') -> ForallOrdPairs R l.
Proof.
  intros A R l l'. induction l as [|a l IH]; intros H; [constructor|]. inversion H as [|? ? H1 H2]; subst. constructor; auto. now apply Forall_app in H1.
Qed.
Lemma FOP_last : forall (A : Type) (R : A -> A -> Prop) l a, ForallOrdPairs R (l ++ [a]) -> Forall (fun b => R b a) l.
Proof.
  intros A R l a. induction l as [|b l IH]; intros H; [constructor|]. inversion H as [|? ? H1 H2]; subst. constructor; auto. apply Forall_app in H1 as [_ H1]. now inversion H1.
Qed.

Section Comb.
Variable E : Compute.env.
Variable m : model.
Variable t : tree.
Variable N : naming.
Hypothesis Hd : (0 < Dim m)%nat.
Hypothesis FO : files_ok E.
Hypothesis CS : correct_solver E.

Definition right_answer (k : comb) : Prop := forall done s vm, vm_inv vm -> made_for m t done vm -> Forall (fine m t N) (done ++ queries k) -> ForallOrdPairs foreign (done ++ queries k) ->
  exists r s' vm', CombSat E k s (mkCtx S0 vm m) = (r, s', mkCtx S0 vm' m) /\ vm_inv vm' /\ made_for m t (done ++ queries k) vm' /\ vm_topv vm <= vm_topv vm' /\
    (vm_topv vm' < 2 ^ 63 -> exists b, r = Ok b /\ (b = true <-> comb_true (Dim m) t k)).

Lemma made_more : forall l l' vm, made_for m t l vm -> made_for m t (l ++ l') vm.
Proof. intros l l' vm H u Hu. destruct (H u Hu) as (q & Hq & X). exists q. split; auto. apply in_or_app; auto. Qed.

Lemma right_atom : forall q b, right_answer (CAtom q b).
Proof.
  intros q b l s vm I HM HF HP. cbn [queries] in *. apply Forall_app in HF as [F1 F2]. apply Forall_inv in F2.
  destruct (next_answer m t N l q vm Hd F1 F2 (FOP_last _ _ _ _ HP) I HM) as (f & vm' & EN & A & HM').
  cbn [CombSat]. pose proof (Step_ctx E q s _ f _ FO EN) as C. pose proof (Step_no_hang E q s _ f _ EN) as NH.
  assert (B : vm_topv vm' < 2 ^ 63 -> exists x, fst (fst (match Step E q s (mkCtx S0 vm m) with
      | (SSat, s, c) => (Ok (negb b), s, c) | (SUnsat, s, c) => (Ok b, s, c) | (SErr e, s, c) => (Err e, s, c) | (SPanic, s, c) => (Panic, s, c) | (SHang, s, c) => (Hang, s, c) end))
      = Ok x /\ (x = true <-> comb_true (Dim m) t (CAtom q b))).
  { intros B. assert (TV : tv f < 2 ^ 63) by (pose proof (an_topv _ _ _ _ _ _ A); lia).
    destruct (Step_answers E m t q vm f vm' s _ FO CS EN A TV) as [(H & out & ls & e & ST & _)|(H & ST)]; rewrite ST; cbn [fst].
    - exists (negb b). split; auto. destruct b; cbn; intuition congruence.
    - exists b. split; auto. destruct b; cbn; intuition congruence. }
  destruct (Step E q s (mkCtx S0 vm m)) as [[r1 s1] c1]. cbn [fst snd] in C, NH. subst c1.
  pose proof (an_inv _ _ _ _ _ _ A) as J. destruct (an_ext _ _ _ _ _ _ A) as [X _].
  destruct r1; eexists _, _, vm'; (split; [reflexivity|]); auto.
Qed.

Lemma right_nil : right_answer CNil.
Proof.
  intros l s vm I HM HF HP. cbn [queries] in *. apply Forall_app in HF as [_ F2]. apply Forall_inv in F2. destruct F2 as (_ & W & _). destruct (wf_scoped _ _ _ W).
Qed.

Lemma right_and : forall l, Forall right_answer l -> right_answer (CAnd l).
Proof.
  intros l H. induction H as [|k l H1 H2 IH]; intros dn s vm I HM HF HP; cbn [queries flat_map comb_true fold_right] in *.
  - rewrite app_nil_r. exists (Ok true), s, vm. split; auto. split; auto. split; auto. split; [lia|]. intros _. exists true. split; auto. tauto.
  - rewrite app_assoc in *. destruct (H1 dn s vm I HM) as (r & s1 & vm1 & E1 & I1 & M1 & T1 & B1); [now apply Forall_app in HF|now apply FOP_app_l in HP|].
    destruct (IH (dn ++ queries k) s1 vm1 I1 M1 HF HP) as (r2 & s2 & vm2 & E2 & I2 & M2 & T2 & B2).
    cbn [CombSat] in E2 |- *. rewrite E1. destruct r as [[|]|e| |].
    + exists r2, s2, vm2. split; [exact E2|]. split; auto. split; auto. split; [lia|]. intros B. destruct (B2 B) as (b2 & -> & X2). exists b2. split; auto.
      destruct B1 as (b1 & Y1 & X1); [lia|]. injection Y1 as <-. cbn [queries flat_map comb_true] in X2. rewrite X2. tauto.
    + exists (Ok false), s1, vm1. split; auto. split; auto. split; [now apply made_more|]. split; auto. intros B. destruct (B1 B) as (b1 & Y1 & X1). injection Y1 as <-. exists false. split; auto. intuition congruence.
    + exists (Err e), s1, vm1. split; auto. split; auto. split; [now apply made_more|]. split; auto. intros B. destruct (B1 B) as (b1 & Y1 & X1). discriminate.
    + exists Panic, s1, vm1. split; auto. split; auto. split; [now apply made_more|]. split; auto. intros B. destruct (B1 B) as (b1 & Y1 & X1). discriminate.
    + exists Hang, s1, vm1. split; auto. split; auto. split; [now apply made_more|]. split; auto. intros B. destruct (B1 B) as (b1 & Y1 & X1). discriminate.
Qed.

Lemma right_or : forall l, Forall right_answer l -> right_answer (COr l).
Proof.
  intros l H. induction H as [|k l H1 H2 IH]; intros dn s vm I HM HF HP; cbn [queries flat_map comb_true fold_right] in *.
  - rewrite app_nil_r. exists (Ok false), s, vm. split; auto. split; auto. split; auto. split; [lia|]. intros _. exists false. split; auto. intuition congruence.
  - rewrite app_assoc in *. destruct (H1 dn s vm I HM) as (r & s1 & vm1 & E1 & I1 & M1 & T1 & B1); [now apply Forall_app in HF|now apply FOP_app_l in HP|].
    destruct (IH (dn ++ queries k) s1 vm1 I1 M1 HF HP) as (r2 & s2 & vm2 & E2 & I2 & M2 & T2 & B2).
    cbn [CombSat] in E2 |- *. rewrite E1. destruct r as [[|]|e| |].
    + exists (Ok true), s1, vm1. split; auto. split; auto. split; [now apply made_more|]. split; auto. intros B. destruct (B1 B) as (b1 & Y1 & X1). injection Y1 as <-. exists true. split; auto. intuition congruence.
    + exists r2, s2, vm2. split; [exact E2|]. split; auto. split; auto. split; [lia|]. intros B. destruct (B2 B) as (b2 & -> & X2). exists b2. split; auto.
      destruct B1 as (b1 & Y1 & X1); [lia|]. injection Y1 as <-. cbn [queries flat_map comb_true] in X2. rewrite X2. intuition congruence.
    + exists (Err e), s1, vm1. split; auto. split; auto. split; [now apply made_more|]. split; auto. intros B. destruct (B1 B) as (b1 & Y1 & X1). discriminate.
    + exists Panic, s1, vm1. split; auto. split; auto. split; [now apply made_more|]. split; auto. intros B. destruct (B1 B) as (b1 & Y1 & X1). discriminate.
    + exists Hang, s1, vm1. split; auto. split; auto. split; [now apply made_more|]. split; auto. intros B. destruct (B1 B) as (b1 & Y1 & X1). discriminate.
Qed.

Lemma right_comb : forall k, right_answer k.
Proof. induction k as [|q b|l IH|l IH] using comb_rect'; [apply right_nil|apply right_atom|now apply right_and|now apply right_or]. Qed.
End Comb.

(* Queries that declare different variables do not disturb each other: a
   combination evaluated in one context has its truth value (as long as the
   variable numbers fit into an int). *)
Theorem C47_combination : forall E m t k N s, (0 < Dim m)%nat -> files_ok E -> correct_solver E ->
  Forall (fun q => (has_all q = true -> is_dtree m t) /\ wf_query m t q /\ tidy N (Dim m) q) (queries k) ->
  ForallOrdPairs (fun q q' => forall v, In v (all_vars q) -> ~ In v (all_vars q')) (queries k) ->
  exists r s' c', CombSat E k s (BasicQContext m) = (r, s', c') /\
    (vm_topv (cVM c') < 2 ^ 63 -> exists b, r = Ok b /\ (b = true <-> comb_true (Dim m) t k)).
Proof.
  intros E m t k N s Hd FO CS HF HP. destruct (right_comb E m t N Hd FO CS k [] s (mkVarman 0 [])) as (r & s' & vm' & X & _ & _ & _ & B); auto.
  - apply vm_inv_init.
  - intros u Hu. exfalso. apply Hu. reflexivity.
  - exists r, s', (mkCtx S0 vm' m). auto.
Qed.
Print Assumptions C47_combination.

Definition third : query := QWith "z" (QNot (QAtom (SubsCV (mkQConst "" [ONE; BOT]) "z"))).
Lemma third_fo : fo_query stump stump_tree third.
Proof.
  constructor.
  - cbn. intros a [<-|[]]; simpl; auto.
  - repeat constructor. simpl; tauto.
  - cbn. tauto.
  - cbn [third components_ok]. ok_atom.
  - split; cbn; repeat constructor.
Qed.
Lemma third_tidy : tidy comp_naming 2 third.
Proof.
  apply rs_tidy; auto.
  - cbn. repeat (apply Forall_cons; [cbn; reflexivity || exact Logic.I|]). apply Forall_nil.
  - cbn. tauto.
  - repeat (apply Forall_cons; [split; [reflexivity|simpl; intuition discriminate]|]). apply Forall_nil.
  - repeat constructor.
Qed.
Definition three : comb := CAnd [CAtom both true; COr [CAtom sample2 false; CAtom third false]].
Definition ran (E : Compute.env) (k : comb) (s : solver) (c : ctx) : option bool :=
  match CombSat E k s c with (Ok b, _, c') => if vm_topv (cVM c') <? 2 ^ 63 then Some b else None | _ => None end.
Example C47_case : comb_true 2 stump_tree three.
Proof.
  assert (A : ran ideal three fresh_solver (BasicQContext stump) = Some true) by (vm_compute; reflexivity). unfold ran in A.
  destruct (C47_combination ideal stump stump_tree three comp_naming fresh_solver) as (r & s' & c' & R & X); [simpl; lia|exact ideal_files|exact ideal_correct| | |].
  - cbn [three queries flat_map app]. repeat (apply Forall_cons; [split; [intros _; exact stump_is_dtree|]|]); [| | |apply Forall_nil].
    + split; [apply fo_wf; exact both_fo|exact both_tidy].
    + split; [apply fo_wf; exact sample2_fo|exact sample2_tidy].
    + split; [apply fo_wf; exact third_fo|exact third_tidy].
  - cbn [three queries flat_map app]. repeat constructor; intros v; cbn; intuition congruence.
  - rewrite R in A. clear R. destruct r as [b|e| |]; [|discriminate A|discriminate A|discriminate A]. destruct (vm_topv (cVM c') <? 2 ^ 63) eqn:B; [|discriminate A]. injection A as ->.
    destruct X as (b & Y & X); [lia|]. injection Y as <-. now apply X.
Qed.

(* The query of C34_refuted, asked a third time after a reset. *)
Example C34_after_reset_case : forall s1 c1 s2 c2, CombSat ideal (CAtom both false) fresh_solver (BasicQContext stump) = (Ok false, s1, c1) ->
  CombSat ideal (CAtom both false) s1 c1 = (Ok true, s2, c2) ->
  exists s3 c3, CombSat ideal (CAtom both false) s2 (CtxReset c2) = (Ok false, s3, c3).
Proof.
  intros s1 c1 s2 c2 R1 R2. assert (N : forall b : bool, Ok b <> Hang) by (intros b X; discriminate X).
  assert (S1 : session stump c1) by exact (Session_sat stump _ _ _ _ _ _ _ (Session_new stump) R1 (N _)).
  assert (S2 : session stump c2) by exact (Session_sat stump _ _ _ _ _ _ _ S1 R2 (N _)). clear R1 R2.
  destruct (C34_after_reset ideal stump stump_tree both comp_naming false s2 c2) as (b & s3 & c3 & R3 & _ & X);
    [simpl; lia|intros _; exact stump_is_dtree|apply fo_wf; exact both_fo|exact both_tidy| |exact ideal_files|exact ideal_correct|exact S2|].
  - apply C44_fits. vm_compute. reflexivity.
  - exists s3, c3. rewrite R3. destruct b; [|reflexivity]. exfalso. destruct X as [X _]. destruct (X eq_refl) as (E & _ & H1 & H2). cbn in H1, H2.
    assert (I0 : in_range 2 0) by (unfold in_range; lia). specialize (H1 0 I0). specialize (H2 0 I0).
    change (ONE = BOT \/ ONE = feat (E "x") 0) in H1. change (ZERO = BOT \/ ZERO = feat (E "x") 0) in H2. unfold BOT, ZERO, ONE in H1, H2. lia.
Qed.
