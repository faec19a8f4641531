(* Property C49: how many solver calls ComputeOptim needs in the worst case. *)
From Coq Require Import FinFun.
From Verif Require Import GoBase GoLemmas Cnf Query Walk Atoms Logop Spec Meaning Truth CnfSem QueryLemmas Sym AtomBase TreeLemmas WalkLemmas AtomMain Form Master Block Ground Sat AtomCnf Evolve Outcome Names FirstOrder Answer Solver Dimacs Compute Run PropContext PropTruth PropCompute Optim PropOptim PropSize PropRefuted Chain.
Local Open Scope string_scope.
Local Open Scope Z_scope.
Local Open Scope list_scope.

(* Every walk down the order is the run of some correct solver. *)
Theorem C49_every_walk : forall m t N fg og v e es s fuel, problem m t N fg og v -> walk_down m t fg og v e es -> (length es < fuel)%nat ->
  exists E, files_ok E /\ correct_solver E /\ e_opttmp E = true /\
  exists s' c', ComputeOptim fuel E fg og v (BasicQContext m) s = (Ok (mkOpt true (mkQConst "" (last es e)) (Z.of_nat (length es) + 2)), s', c').
Proof. intros m t N fg og v e es s fuel P HW HF. now apply (walk_optim m t N fg og v P es e s fuel). Qed.
Print Assumptions C49_every_walk.

(* ---- a quantifier-free order with long walks ---- *)

(* Defined features first, in the order of the features. *)
Definition rank_above (d : nat) (v : QVar) (c : QConst) : query :=
  QAnd (QAtom (HeprVC v c (indices_below d) (Some VarGenFeaturePreference))) (QNot (QAtom (HeprCV c v (indices_below d) (Some VarGenFeaturePreference)))).
Definition always (v : QVar) : query := QAtom (AllV v true (Some VarGenNodeReach)).
Definition positive (d : nat) : model := mkModel d [mkNode true 0 (-1) (-1)].
Definition leaf : tree := Leaf 0 true.

Lemma positive_is_dtree : forall d, (0 < d)%nat -> is_dtree (positive d) leaf.
Proof.
  intros d Hd. split; [exact Hd|]. split; [reflexivity|]. split.
  - split; [lia|]. eexists. split; [reflexivity|]. split; reflexivity.
  - split; [repeat constructor; simpl; tauto|]. split; [reflexivity|exact Logic.I].
Qed.

Lemma rank_problem : forall d, (0 < d)%nat -> Z.of_nat (7 * unit_size d 1) < 2 ^ 63 -> problem (positive d) leaf comp_naming always (rank_above d) "x".
Proof.
  intros d Hd SZ. pose proof (positive_is_dtree d Hd) as DT.
  assert (PV : pref_valid d (indices_below d) /\ indices_below d <> []).
  { split; [split|].
    - apply Forall_forall. intros i Hi. now apply in_indices.
    - unfold indices_below. apply Injective_map_NoDup; [intros a b; apply Nat2Z.inj|apply seq_NoDup].
    - unfold indices_below. destruct d; [lia|discriminate]. }
  assert (AV : atom_ok d (bind_atom [] (AllV "x" true (Some VarGenNodeReach))) /\ model_ok (positive d) leaf (AllV "x" true (Some VarGenNodeReach))).
  { split; [|exact DT]. split; [apply Forall_nil|]. split; [discriminate|]. split; exact Logic.I. }
  assert (IX : incl ["x"] ["x"]) by apply incl_refl.
  assert (TD : forall e, tidy comp_naming d (QWith "x" (QAnd (always "x") (rank_above d "x" (mkQConst "" e))))).
  { intros e. apply rs_tidy; auto.
    - cbn. repeat (apply Forall_cons; [cbn; reflexivity || exact Logic.I|]). apply Forall_nil.
    - cbn. intros p p' [<-|[<-|[]]] [<-|[<-|[]]]; auto.
    - repeat (apply Forall_cons; [split; [reflexivity|simpl; intuition discriminate]|]). apply Forall_nil.
    - repeat constructor. }
  constructor; [exact Hd|exact DT| | |].
  - split; [|split].
    + constructor; [cbn; auto|cbn; tauto|cbn; tauto|exact AV|split; repeat constructor].
    + apply rs_tidy; auto.
      * cbn. repeat (apply Forall_cons; [cbn; reflexivity || exact Logic.I|]). apply Forall_nil.
      * cbn. tauto.
      * repeat (apply Forall_cons; [split; [reflexivity|simpl; intuition discriminate]|]). apply Forall_nil.
      * repeat constructor.
    + apply C44_fits. cbn [qlen qdepth always positive Dim Nodes length Nat.pow Nat.max]. lia.
  - intros e V. cbv zeta. split; [|split; [exact (TD e)|]].
    + constructor; [cbn; auto|cbn; tauto|cbn; tauto| |split; repeat constructor].
      split; [exact AV|]. split; (split; [|exact Logic.I]; split; [apply Forall_cons; [exact V|apply Forall_nil]|]; split; [cbn; discriminate|]; split; [exact PV|exact Logic.I]).
    + apply C44_fits. cbn [qlen qdepth always rank_above positive Dim Nodes length Nat.pow Nat.max Nat.add]. lia.
  - intros e w _ _ [].
Qed.

Lemma always_satisfies : forall d e, valid_inst d e -> satisfies d leaf "x" (always "x") e.
Proof. intros d e V. exists (fun _ => e). split; [intros v; exact V|]. split; [reflexivity|]. intros x _. reflexivity. Qed.
Lemma rank_satisfies : forall d e e', valid_inst d e' -> (satisfies d leaf "x" (rank_above d "x" (mkQConst "" e)) e' <->
  preferred (indices_below d) e' e /\ ~ preferred (indices_below d) e e').
Proof.
  intros d e e' V. split.
  - intros (E & _ & <- & H1 & H2). auto.
  - intros [H1 H2]. exists (fun _ => e'). split; [intros v; exact V|]. split; [reflexivity|]. split; [exact H1|exact H2].
Qed.

(* the relation, feature by feature *)
Fixpoint lex (e e' : inst) : Prop :=
  match e, e' with
  | x :: e, y :: e' => (x <> BOT /\ y = BOT) \/ ((x = BOT <-> y = BOT) /\ lex e e')
  | _, _ => True
  end.
Lemma feat_at : forall (p e : inst) x, feat (p ++ x :: e) (Z.of_nat (length p)) = x.
Proof. intros p e x. unfold feat. rewrite Nat2Z.id. rewrite app_nth2 by lia. now rewrite Nat.sub_diag. Qed.
Lemma preferred_lex : forall e e' p p', length e = length e' -> length p = length p' ->
  preferred (map Z.of_nat (seq (length p) (length e))) (p ++ e) (p' ++ e') <-> lex e e'.
Proof.
  induction e as [|x e IH]; intros [|y e'] p p' L LP; try discriminate; [simpl; tauto|]. cbn [length seq map preferred lex]. rewrite feat_at. rewrite LP at 1 2. rewrite feat_at.
  specialize (IH e' (p ++ [x]) (p' ++ [y])). rewrite !app_length in IH. cbn [length] in IH. rewrite <- !app_assoc in IH. cbn [app] in IH.
  replace (length p + 1)%nat with (S (length p)) in IH by lia. rewrite IH; [tauto| |lia]. simpl in L. lia.
Qed.
Lemma preferred_is_lex : forall d e e', length e = d -> length e' = d -> (preferred (indices_below d) e e' <-> lex e e').
Proof. intros d e e' <- L. exact (preferred_lex e e' [] [] (eq_sym L) eq_refl). Qed.

Definition higher (e e' : inst) : Prop := lex e e' /\ ~ lex e' e.
Lemma higher_cons : forall x e e', higher e e' -> higher (x :: e) (x :: e').
Proof. intros x e e' [A B]. split; cbn [lex]; [right; tauto|]. intros [[C D]|[_ C]]; auto. Qed.
Lemma higher_one : forall e e', higher (ONE :: e) (BOT :: e').
Proof. intros e e'. split; cbn [lex]; [left; split; [discriminate|reflexivity]|]. intros [[C _]|[C _]]; [now elim C|]. destruct C as [C _]. discriminate (C eq_refl). Qed.
Lemma ones_top : forall d e, length e = d -> lex (repeat ONE d) e.
Proof.
  induction d as [|d IH]; intros [|x e] L; try discriminate; cbn [repeat lex]; auto. destruct (Z.eq_dec x BOT) as [->|N]; [left; split; [discriminate|reflexivity]|].
  right. split; [|apply IH; simpl in L; lia]. split; [discriminate|contradiction].
Qed.

Lemma lex_trans : forall e1 e2 e3, length e1 = length e2 -> length e2 = length e3 -> lex e1 e2 -> lex e2 e3 -> lex e1 e3.
Proof.
  induction e1 as [|x e1 IH]; intros [|y e2] [|z e3] L1 L2; try discriminate; cbn [lex]; auto. injection L1 as L1. injection L2 as L2.
  intros [[A B]|[A B]] [[C D]|[C D]]; [left; auto|left; tauto|left; tauto|right; split; [tauto|eauto]].
Qed.
Lemma lex_total : forall e1 e2, length e1 = length e2 -> lex e1 e2 \/ lex e2 e1.
Proof.
  induction e1 as [|x e1 IH]; intros [|y e2] L; try discriminate; cbn [lex]; auto. injection L as L.
  destruct (Z.eq_dec x BOT), (Z.eq_dec y BOT), (IH _ L); tauto.
Qed.
Lemma higher_trans : forall e1 e2 e3, length e1 = length e2 -> length e2 = length e3 -> higher e1 e2 -> higher e2 e3 -> higher e1 e3.
Proof.
  intros e1 e2 e3 L1 L2 [A B] [C D]. split; [now apply (lex_trans e1 e2)|]. intros X. apply B. apply (lex_trans e2 e3); auto. congruence.
Qed.

(* All sets of features, from the lowest rank to the highest. *)
Fixpoint climb (d : nat) : list inst :=
  match d with O => [[]] | S d => map (cons BOT) (climb d) ++ map (cons ONE) (climb d) end.
Fixpoint rising (e : inst) (l : list inst) : Prop :=
  match l with [] => True | e' :: r => higher e' e /\ rising e' r end.

Lemma rising_app : forall l e l' e', rising e l -> higher e' (last l e) -> rising e' l' -> rising e (l ++ e' :: l').
Proof.
  induction l as [|x l IH]; intros e l' e' R H R'; cbn [app rising]; [split; auto|].
  destruct R as [R1 R2]. split; auto. apply IH; auto. now rewrite last_more in H.
Qed.
Lemma rising_map : forall x l e, rising e l -> rising (x :: e) (map (cons x) l).
Proof. intros x. induction l as [|y l IH]; intros e; cbn [map rising]; auto. intros [A B]. split; [now apply higher_cons|auto]. Qed.
Lemma last_map : forall (x : Z) (l : list inst) (e : inst), last (map (cons x) l) (x :: e) = x :: last l e.
Proof. intros x. induction l as [|y l IH]; intros e; auto. cbn [map]. rewrite !last_more. apply IH. Qed.
Lemma climb_spec : forall d, exists l, climb d = repeat BOT d :: l /\ rising (repeat BOT d) l /\ last l (repeat BOT d) = repeat ONE d /\ length l = (2 ^ d - 1)%nat.
Proof.
  induction d as [|d (l & E & R & L & N)]; [exists []; cbn; auto|]. cbn [climb repeat]. rewrite E. cbn [map app].
  eexists. split; [reflexivity|]. split; [|split].
  - apply rising_app; [now apply rising_map| |now apply rising_map]. rewrite last_map. apply higher_one.
  - clear R N E. generalize (BOT :: repeat BOT d). induction (map (cons BOT) l) as [|y r IH]; intros e.
    + cbn [app]. rewrite last_more. etransitivity; [apply last_map|exact (f_equal (cons ONE) L)].
    + cbn [app]. rewrite last_more. apply IH.
  - rewrite app_length. cbn [length]. rewrite !map_length, N. cbn [Nat.pow]. pose proof (Nat.pow_nonzero 2 d). lia.
Qed.
Lemma climb_valid : forall d e, In e (climb d) -> valid_inst d e.
Proof.
  induction d as [|d IH]; intros e H.
  - destruct H as [<-|[]]. split; auto.
  - cbn [climb] in H. apply in_app_iff in H. assert (X : exists x e', e = x :: e' /\ valid_feat x /\ valid_inst d e').
    { destruct H as [H|H]; apply in_map_iff in H as (e' & <- & H); [exists BOT, e'|exists ONE, e']; (split; [reflexivity|]; split; [unfold valid_feat; auto|auto]). }
    destruct X as (x & e' & -> & V & [A B]). split; [simpl; congruence|constructor; auto].
Qed.

Lemma rising_walk : forall d, (0 < d)%nat -> forall l e, valid_inst d e -> Forall (valid_inst d) l -> rising e l -> last l e = repeat ONE d -> walk_down (positive d) leaf always (rank_above d) "x" e l.
Proof.
  intros d Hd. induction l as [|e' l IH]; intros e V F R L; cbn [walk_down]; (split; [apply always_satisfies, V|]).
  - cbn [last] in L. subst e. intros e' M B. apply satisfies_valid in M. apply (rank_satisfies d) in B as [_ B]; auto. apply B. destruct M as [M1 M2].
    apply preferred_is_lex; [apply repeat_length|exact M1|now apply ones_top].
  - destruct R as [[R1 R2] R]. inversion F as [|? ? V' F']; subst. split.
    + apply rank_satisfies; auto. destruct V as [V _]. destruct V' as [V' _]. cbn [positive Dim]. rewrite !preferred_is_lex by auto. auto.
    + apply IH; auto. now rewrite last_more in L.
Qed.

(* No quantifier, one node, a strict order: 2^dim + 1 calls. *)
Theorem C49_polynomial_refuted : forall d s fuel, (0 < d)%nat -> Z.of_nat (7 * unit_size d 1) < 2 ^ 63 -> (2 ^ d <= fuel)%nat ->
  exists E m t N fg og v, files_ok E /\ correct_solver E /\ e_opttmp E = true /\ problem m t N fg og v /\
    Dim m = d /\ length (Nodes m) = 1%nat /\ has_all (fg v) = false /\ (forall c, has_all (og v c) = false) /\ (forall c, (qlen (og v c) <= 4)%nat) /\
    (let lt e' e := satisfies d t v (og v (mkQConst "" e)) e' in
     (forall e, ~ lt e e) /\ forall e1 e2 e3, valid_inst d e1 -> valid_inst d e2 -> valid_inst d e3 -> lt e1 e2 -> lt e2 e3 -> lt e1 e3) /\
    exists s' c', ComputeOptim fuel E fg og v (BasicQContext m) s = (Ok (mkOpt true (mkQConst "" (repeat ONE d)) (2 ^ Z.of_nat d + 1)), s', c').
Proof.
  intros d s fuel Hd SZ HF. destruct (climb_spec d) as (l & E & R & L & N). pose proof (Nat.pow_nonzero 2 d) as NZ.
  assert (V : Forall (valid_inst d) (repeat BOT d :: l)) by (rewrite <- E; apply Forall_forall; apply climb_valid). inversion V as [|? ? V1 V2]; subst.
  assert (LF : (length l < fuel)%nat) by lia.
  destruct (C49_every_walk (positive d) leaf comp_naming always (rank_above d) "x" (repeat BOT d) l s fuel (rank_problem d Hd SZ)) as (S & FO & CS & ET & s' & c' & C);
    [now apply rising_walk|exact LF|].
  exists S, (positive d), leaf, comp_naming, always, (rank_above d), "x". split; [exact FO|]. split; [exact CS|]. split; [exact ET|]. split; [now apply rank_problem|].
  split; [reflexivity|]. split; [reflexivity|]. split; [reflexivity|]. split; [reflexivity|]. split; [intros c; cbn; lia|]. split.
  - cbv zeta. split.
    + intros e (E0 & _ & <- & A & B). cbn in A, B. contradiction.
    + intros e1 e2 e3 A1 A2 A3. rewrite !rank_satisfies by auto. destruct A1 as [A1 _], A2 as [A2 _], A3 as [A3 _]. rewrite !preferred_is_lex by auto.
      intros X Y. apply (higher_trans e1 e2 e3); auto; congruence.
  - exists s', c'. rewrite C. apply (f_equal (fun o => (Ok o, s', c'))). apply (f_equal2 (fun a b => mkOpt true (mkQConst "" a) b)); [exact L|].
    transitivity (Z.of_nat (2 ^ d - 1) + 2); [exact (f_equal (fun n => Z.of_nat n + 2) N)|]. rewrite Nat2Z.inj_sub by lia. rewrite Nat2Z.inj_pow. lia.
Qed.
Print Assumptions C49_polynomial_refuted.

(* The bound of C29 for subsumption is the right one: filling one feature at a time takes dim + 2 calls. *)
Fixpoint within (e e' : inst) : Prop :=
  match e, e' with
  | x :: e, y :: e' => (x = BOT \/ x = y) /\ within e e'
  | _, _ => True
  end.
Lemma within_subsumed : forall e e', length e = length e' -> (subsumed (length e) e e' <-> within e e').
Proof.
  induction e as [|x e IH]; intros [|y e'] L; try discriminate; [split; [intros _; exact Logic.I|intros _ i [A B]; cbn in B; lia]|]. injection L as L. cbn [within]. rewrite <- (IH e' L). split.
  - intros H. split; [apply (H 0); split; cbn [length]; lia|]. intros i [A B]. specialize (H (i + 1)). unfold feat in *. replace (Z.to_nat (i + 1)) with (S (Z.to_nat i)) in H by lia.
    apply H. split; cbn [length]; lia.
  - intros [A B] i [I1 I2]. cbn [length] in I2. destruct (Z.eq_dec i 0) as [->|N]; [exact A|]. specialize (B (i - 1)). unfold feat in *. replace (Z.to_nat i) with (S (Z.to_nat (i - 1))) by lia.
    cbn [nth]. apply B. split; lia.
Qed.
Definition beyond (e e' : inst) : Prop := within e' e /\ ~ within e e'.
Fixpoint stepping (e : inst) (l : list inst) : Prop :=
  match l with [] => True | e' :: r => beyond e' e /\ stepping e' r end.
Fixpoint fill (d : nat) : list inst :=
  match d with O => [] | S d => map (cons BOT) (fill d) ++ [repeat ONE (S d)] end.
Lemma within_refl : forall e, within e e.
Proof. induction e; cbn [within]; auto. Qed.
Lemma stepping_app : forall l e e', stepping e l -> beyond e' (last l e) -> stepping e (l ++ [e']).
Proof. induction l as [|x l IH]; intros e e' A B; cbn [app stepping]; [auto|]. destruct A as [A1 A2]. split; auto. apply IH; auto. now rewrite last_more in B. Qed.
Lemma stepping_map : forall x l e, stepping e l -> stepping (x :: e) (map (cons x) l).
Proof. intros x. induction l as [|y l IH]; intros e; cbn [map stepping]; auto. intros [[A1 A2] B]. split; auto. split; cbn [within]; [auto|]. tauto. Qed.
Lemma fill_spec : forall d, stepping (repeat BOT d) (fill d) /\ last (fill d) (repeat BOT d) = repeat ONE d /\ length (fill d) = d /\ Forall (valid_inst d) (fill d).
Proof.
  induction d as [|d (R & L & N & F)]; [split; [exact Logic.I|]; split; [reflexivity|]; split; [reflexivity|constructor]|]. cbn [fill repeat]. split; [|split; [|split]].
  - apply stepping_app; [now apply stepping_map|]. rewrite last_map. assert (X : beyond (ONE :: repeat ONE d) (BOT :: repeat ONE d)).
    { split; cbn [within].
      - split; [auto|apply within_refl].
      - intros [[H|H] _]; discriminate. }
    rewrite <- L in X at 2. exact X.
  - generalize (BOT :: repeat BOT d). induction (map (cons BOT) (fill d)) as [|y r IH]; intros e; cbn [app]; [reflexivity|]. rewrite last_more. apply IH.
  - rewrite app_length, map_length. cbn [length]. etransitivity; [exact (f_equal (fun n => (n + 1)%nat) N)|lia].
  - apply Forall_app. split.
    + apply Forall_map. eapply Forall_impl; [|exact F]. intros e [A B]. split; [simpl; congruence|constructor; [unfold valid_feat; auto|exact B]].
    + constructor; [|constructor]. split; [simpl; now rewrite repeat_length|]. change (ONE :: repeat ONE d) with (repeat ONE (S d)). apply Forall_forall. intros x Hx. apply repeat_spec in Hx. subst. unfold valid_feat. auto.
Qed.
Lemma ones_within : forall d e, length e = d -> within (repeat ONE d) e -> e = repeat ONE d.
Proof. induction d as [|d IH]; intros [|x e] L; try discriminate; auto. cbn [repeat within]. intros [[A|A] B]; [discriminate|]. subst x. f_equal. apply IH; auto. Qed.

Lemma fill_problem : forall d, (0 < d)%nat -> Z.of_nat (7 * unit_size d 1) < 2 ^ 63 -> problem (positive d) leaf comp_naming always subs_max "x".
Proof.
  intros d Hd SZ. pose proof (rank_problem d Hd SZ) as [_ DT W0 W1 _].
  assert (IX : incl ["x"] ["x"]) by apply incl_refl. destruct W0 as (W01 & W02 & W03).
  constructor; [exact Hd|exact DT|split; auto| |].
  - intros e V. cbv zeta. split; [|split].
    + constructor; [cbn; auto|cbn; tauto|cbn; tauto| |split; repeat constructor].
      split; [|split; (split; [|exact Logic.I]; split; [apply Forall_cons; [exact V|apply Forall_nil]|]; split; [exact Logic.I|]; split; exact Logic.I)].
      split; [|exact DT]. split; [apply Forall_nil|]. split; [discriminate|]. split; exact Logic.I.
    + apply rs_tidy; auto.
      * cbn. repeat (apply Forall_cons; [cbn; reflexivity || exact Logic.I|]). apply Forall_nil.
      * cbn. tauto.
      * repeat (apply Forall_cons; [split; [reflexivity|simpl; intuition discriminate]|]). apply Forall_nil.
      * repeat constructor.
    + apply C44_fits. unfold subs_max, strictly. cbn [qlen qdepth always positive Dim Nodes length Nat.pow Nat.max Nat.add]. lia.
  - intros e w _ _ [].
Qed.
Lemma stepping_walk : forall d, (0 < d)%nat -> forall l e, valid_inst d e -> Forall (valid_inst d) l -> stepping e l -> last l e = repeat ONE d -> walk_down (positive d) leaf always subs_max "x" e l.
Proof.
  assert (SS : forall d e e', valid_inst d e -> valid_inst d e' -> (satisfies d leaf "x" (subs_max "x" (mkQConst "" e)) e' <-> beyond e' e)).
  { intros d e e' V V'. unfold beyond. rewrite <- !within_subsumed by (destruct V, V'; congruence). destruct V as [V1 V2]. destruct V' as [V1' V2']. rewrite V1, V1'. split.
    - intros (E & _ & <- & H1 & H2). auto.
    - intros [H1 H2]. exists (fun _ => e'). split; [intros v; split; auto|]. split; [reflexivity|]. split; [exact H1|exact H2]. }
  intros d Hd. induction l as [|e' l IH]; intros e V F R L; cbn [walk_down]; (split; [apply always_satisfies, V|]).
  - cbn [last] in L. subst e. intros e' M B. apply satisfies_valid in M. apply (SS d) in B as [B1 B2]; auto. destruct M as [M _]. apply ones_within in B1; auto. subst e'. apply B2, within_refl.
  - destruct R as [R1 R]. inversion F as [|? ? V' F']; subst. split.
    + apply SS; auto.
    + apply IH; auto. now rewrite last_more in L.
Qed.
Theorem C49_subsumption_tight : forall d s fuel, (0 < d)%nat -> Z.of_nat (7 * unit_size d 1) < 2 ^ 63 -> (d < fuel)%nat ->
  exists E m t N fg v, files_ok E /\ correct_solver E /\ e_opttmp E = true /\ problem m t N fg subs_max v /\ Dim m = d /\ length (Nodes m) = 1%nat /\
    exists s' c', ComputeOptim fuel E fg subs_max v (BasicQContext m) s = (Ok (mkOpt true (mkQConst "" (repeat ONE d)) (Z.of_nat d + 2)), s', c').
Proof.
  intros d s fuel Hd SZ HF. destruct (fill_spec d) as (R & L & N & F). assert (LF : (length (fill d) < fuel)%nat) by lia.
  assert (V : valid_inst d (repeat BOT d)) by (apply climb_valid; destruct (climb_spec d) as (l & E & _); rewrite E; left; reflexivity).
  destruct (C49_every_walk (positive d) leaf comp_naming always subs_max "x" (repeat BOT d) (fill d) s fuel (fill_problem d Hd SZ)) as (S & FO & CS & ET & s' & c' & C);
    [now apply stepping_walk|exact LF|].
  exists S, (positive d), leaf, comp_naming, always, "x". split; [exact FO|]. split; [exact CS|]. split; [exact ET|]. split; [now apply fill_problem|].
  split; [reflexivity|]. split; [reflexivity|]. exists s', c'. rewrite C. apply (f_equal (fun o => (Ok o, s', c'))). apply (f_equal2 (fun a b => mkOpt true (mkQConst "" a) b)); [exact L|].
  exact (f_equal (fun n => Z.of_nat n + 2) N).
Qed.
Print Assumptions C49_subsumption_tight.

(* One hundred features meet the hypotheses: more than 10^30 calls for a formula of a few thousand clauses. *)
Example C49_hundred : (0 < 100)%nat /\ Z.of_nat (7 * unit_size 100 1) < 2 ^ 63 /\ 10 ^ 30 < 2 ^ Z.of_nat 100 + 1.
Proof. split; [lia|]. split; [|vm_compute; reflexivity]. unfold unit_size. lia. Qed.
