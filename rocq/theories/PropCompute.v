(* Properties C25-C27: values of a solved query, answers, combinators. *)
From Verif Require Import GoBase GoLemmas Cnf Query Walk Atoms Logop Spec Meaning Truth CnfSem QueryLemmas Sym AtomBase TreeLemmas WalkLemmas AtomMain Form Master Block Ground Sat AtomCnf Evolve Names FirstOrder Answer Solver Dimacs Compute Run PropContext PropTruth.
Local Open Scope string_scope.
Local Open Scope Z_scope.
Local Open Scope list_scope.

(* ---- C25 ---- *)

Theorem C25_values : forall m t q N, (0 < Dim m)%nat -> (has_all q = true -> is_dtree m t) -> wf_query m t q -> tidy N (Dim m) q ->
  exists f c', enc q (BasicQContext m) = (Ok f, c') /\
    forall out ls nv r, prints out ls -> gives nv ls r -> tv f <= nv -> Models r f = true ->
    exists E, valid_env (Dim m) E /\ matrix (Dim m) t E [] q /\
      (forall vars, incl vars (block_vars q) -> Values out vars c' = (Ok (map (fun v => mkQConst "" (E v)) vars), c')) /\
      (forall v i x, In v (block_vars q) -> in_range (Dim m) i -> valid_feat x ->
         exists n, vlookup (vm_vars (cVM c')) (v, i, x) = Some n /\ (In n ls <-> feat (E v) i = x)).
Proof.
  intros m t q N Hd HA W T. destruct (fresh_answer m t q N Hd HA W T) as (f & vm' & E & A). exists f. eexists. split; [exact E|].
  intros out ls nv r P G B Hr. destruct (solved_values m t q _ f vm' out ls nv r A P G B Hr) as (E0 & [F1 F2 F3 F4 F5]). exists E0. auto.
Qed.
Print Assumptions C25_values.

(* How the assignment is split into lines, and what the other lines say, does
   not matter: for any variables, any context. *)
Theorem C25_splitting : forall out out' ls vars c, prints out ls -> prints out' ls -> Values out vars c = Values out' vars c.
Proof.
  intros out out' ls vars. induction vars as [|v vars IH]; intros c P P'; auto. cbn [Values].
  assert (E : varValueFromBytes out v c = varValueFromBytes out' v c).
  { unfold varValueFromBytes. destruct (variableFilter (cVM c) (Dim (cModel c)) v) as [flt vm].
    destruct P as (l & N & H & -> & E1). destruct P' as (l' & N' & H' & -> & E2).
    rewrite !lines_split, !parse_lines_ok by auto. now rewrite <- E1, <- E2. }
  rewrite E. destruct (varValueFromBytes out' v c) as [[k|e| |] c1]; auto. now rewrite IH.
Qed.
Print Assumptions C25_splitting.

(* Two lines of values among other lines. *)
Definition some_lines : list oline := [OText "c comment"; OVals [-1; 2; -3]; OText "s SATISFIABLE"; OVals [-4; -5]; OVals [6; 0]; OText ""].
Example C25_case :
  let out := sjoin nl (map line_text some_lines) in
  exists f c' r, enc (QWith "x" (QAtom (SubsVC "x" (mkQConst "" [ONE; BOT])))) (BasicQContext stump) = (Ok f, c') /\
    prints out [-1; 2; -3; -4; -5; 6; 0] /\ gives 6 [-1; 2; -3; -4; -5; 6; 0] r /\ tv f <= 6 /\ Models r f = true /\
    fst (Values out ["x"] c') = Ok [mkQConst "" [ONE; BOT]].
Proof.
  intros out. eexists. eexists. exists (fun n => (n =? 2) || (n =? 6)). split; [vm_compute; reflexivity|]. split; [|split; [|split; [|split]]].
  - exists some_lines. split; [discriminate|]. split; [|split; reflexivity]. unfold some_lines.
    repeat (apply Forall_cons; [split; [reflexivity || discriminate|try discriminate; try exact Logic.I; try (repeat (apply Forall_cons; [split; lia|]); apply Forall_nil)]|]). apply Forall_nil.
  - split; [repeat (apply Forall_cons; [lia|]); apply Forall_nil|].
    intros n Hn. assert (X : n = 1 \/ n = 2 \/ n = 3 \/ n = 4 \/ n = 5 \/ n = 6) by lia.
    destruct X as [->|[->|[->|[->|[->| ->]]]]]; vm_compute; split; split; intros H; try reflexivity; try discriminate; intuition congruence.
  - cbn. lia.
  - vm_compute. reflexivity.
  - vm_compute. reflexivity.
Qed.

(* ---- C26 ---- *)

(* The number of the encoding's last variable is an int. *)
Definition fits (m : model) (q : query) : Prop := forall f c', enc q (BasicQContext m) = (Ok f, c') -> tv f < 2 ^ 63.

Theorem C26_atom : forall E m t q N (negated : bool) s, (0 < Dim m)%nat -> (has_all q = true -> is_dtree m t) -> wf_query m t q -> tidy N (Dim m) q ->
  fits m q -> files_ok E -> correct_solver E ->
  exists b s' c', CombSat E (CAtom q negated) s (BasicQContext m) = (Ok b, s', c') /\
    (b = true <-> if negated then ~ true_query (Dim m) t q else true_query (Dim m) t q) /\
    (b = false <-> if negated then true_query (Dim m) t q else ~ true_query (Dim m) t q).
Proof.
  intros E m t q N b s Hd HA W T F FO CS. destruct (fresh_answer m t q N Hd HA W T) as (f & vm' & EN & A).
  destruct (Step_answers E m t q _ f vm' s _ FO CS EN A (F _ _ EN)) as [(H & out & ls & e & ST & _)|(H & ST)]; cbn [CombSat]; rewrite ST.
  - exists (negb b). do 2 eexists. split; [reflexivity|]. destruct b; cbn; intuition congruence.
  - exists b. do 2 eexists. split; [reflexivity|]. destruct b; cbn; intuition congruence.
Qed.
Print Assumptions C26_atom.

(* The same in terms of the first-order reading of the query. *)
Theorem C26_first_order : forall E m t q N (negated : bool) s K0, (0 < Dim m)%nat -> (has_all q = true -> is_dtree m t) -> fo_query m t q -> tidy N (Dim m) q ->
  valid_env (Dim m) K0 -> fits m q -> files_ok E -> correct_solver E ->
  exists b s' c', CombSat E (CAtom q negated) s (BasicQContext m) = (Ok b, s', c') /\
    (b = true <-> if negated then ~ trueFO (Dim m) t K0 [] q else trueFO (Dim m) t K0 [] q).
Proof.
  intros E m t q N b s K0 Hd HA F T V B FO CS. destruct (C26_atom E m t q N b s Hd HA (fo_wf _ _ _ F) T B FO CS) as (x & s' & c' & R & X & _).
  exists x, s', c'. split; auto. rewrite X. assert (Q : trueFO (Dim m) t K0 [] q <-> true_query (Dim m) t q) by (apply fo_true; auto; apply F).
  destruct b; tauto.
Qed.
Print Assumptions C26_first_order.

Example C26_case : forall s, exists s' c', CombSat ideal (CAtom sample true) s (BasicQContext stump) = (Ok false, s', c').
Proof.
  intros s. destruct (C26_atom ideal stump stump_tree sample comp_naming true s) as (b & s' & c' & X & _ & B);
    [simpl; lia|intros _; exact stump_is_dtree|exact sample_wf|exact sample_tidy| |exact ideal_files|exact ideal_correct|].
  - intros f c' E. apply (f_equal fst) in E. cbn [fst] in E.
    assert (X : match fst (enc sample (BasicQContext stump)) with Ok f => tv f <? 2 ^ 63 | _ => false end = true) by (vm_compute; reflexivity).
    rewrite E in X. lia.
  - exists s', c'. rewrite X. replace b with false; [reflexivity|]. symmetry. apply B. exact C23_case_true.
Qed.

(* ---- C27 ---- *)

(* Evaluated one after the other, all the elements give v. *)
Inductive all_give (E : Compute.env) (v : bool) : list comb -> solver -> ctx -> solver -> ctx -> Prop :=
| AllNone : forall s c, all_give E v [] s c s c
| AllMore : forall k l s c s1 c1 s2 c2, CombSat E k s c = (Ok v, s1, c1) -> all_give E v l s1 c1 s2 c2 -> all_give E v (k :: l) s c s2 c2.
(* All the elements give v, or the first one that does not decides. *)
Inductive decides (E : Compute.env) (v : bool) (l : list comb) (s : solver) (c : ctx) : res bool * solver * ctx -> Prop :=
| ByAll : forall s' c', all_give E v l s c s' c' -> decides E v l s c (Ok v, s', c')
| ByOne : forall l1 k l2 s1 c1 r s' c', l = l1 ++ k :: l2 -> all_give E v l1 s c s1 c1 -> CombSat E k s1 c1 = (r, s', c') -> r <> Ok v ->
    decides E v l s c (r, s', c').

Lemma decides_cons : forall E v k l s c s1 c1 x, CombSat E k s c = (Ok v, s1, c1) -> decides E v l s1 c1 x -> decides E v (k :: l) s c x.
Proof.
  intros E v k l s c s1 c1 x H [s' c' A|l1 k' l2 s2 c2 r s' c' -> A B N].
  - apply ByAll. econstructor; eauto.
  - apply (ByOne E v _ s c (k :: l1) k' l2 s2 c2); auto. econstructor; eauto.
Qed.

Theorem C27_and : forall E l s c, decides E true l s c (CombSat E (CAnd l) s c).
Proof.
  intros E l. induction l as [|k l IH]; intros s c; [apply ByAll; constructor|].
  cbn [CombSat]. destruct (CombSat E k s c) as [[r s1] c1] eqn:K. destruct r as [[|]|e| |];
    try (apply (ByOne E true (k :: l) s c [] k l s c); [reflexivity|constructor|exact K|discriminate]).
  apply (decides_cons E true k l s c s1 c1); auto. apply IH.
Qed.
Print Assumptions C27_and.
Theorem C27_or : forall E l s c, decides E false l s c (CombSat E (COr l) s c).
Proof.
  intros E l. induction l as [|k l IH]; intros s c; [apply ByAll; constructor|].
  cbn [CombSat]. destruct (CombSat E k s c) as [[r s1] c1] eqn:K. destruct r as [[|]|e| |];
    try (apply (ByOne E false (k :: l) s c [] k l s c); [reflexivity|constructor|exact K|discriminate]).
  apply (decides_cons E false k l s c s1 c1); auto. apply IH.
Qed.
Print Assumptions C27_or.

(* The outcome is determined: there is at most one way to decide. *)
Lemma all_give_det : forall E v l s c s1 c1, all_give E v l s c s1 c1 -> forall s2 c2, all_give E v l s c s2 c2 -> s1 = s2 /\ c1 = c2.
Proof.
  intros E v l s c s1 c1 H. induction H as [|k l s c s1 c1 s2 c2 H1 H2 IH]; intros s' c' H'; inversion H'; subst; auto.
  apply IH. congruence.
Qed.
Theorem C27_determined : forall E v l s c x y, decides E v l s c x -> decides E v l s c y -> x = y.
Proof.
  intros E v l. induction l as [|k l IH]; intros s c x y Hx Hy.
  - destruct Hx as [s1 c1 H1|l1 k l2 s1 c1 r s' c' H]; [|destruct l1; discriminate]. destruct Hy as [s2 c2 H2|l1 k l2 s2 c2 r s' c' H]; [|destruct l1; discriminate].
    inversion H1; inversion H2; subst; auto.
  - assert (S : forall z, decides E v (k :: l) s c z -> (CombSat E k s c = z /\ fst (fst z) <> Ok v) \/ exists s1 c1, CombSat E k s c = (Ok v, s1, c1) /\ decides E v l s1 c1 z).
    { intros z [s1 c1 H1|l1 k' l2 s1 c1 r s' c' Q A B N].
      - inversion H1; subst. right. exists s2, c2. split; auto. now apply ByAll.
      - destruct l1 as [|k1 l1]; cbn in Q; injection Q as -> ->.
        + inversion A; subst. left. auto.
        + inversion A; subst. right. exists s2, c2. split; auto. apply (ByOne E v _ s2 c2 l1 k' l2 s1 c1); auto. }
    destruct (S x Hx) as [[A1 A2]|(s1 & c1 & A1 & A2)], (S y Hy) as [[B1 B2]|(s2 & c2 & B1 & B2)].
    + congruence.
    + rewrite B1 in A1. subst x. now elim A2.
    + rewrite A1 in B1. subst y. now elim B2.
    + rewrite A1 in B1. injection B1 as -> ->. eapply IH; eauto.
Qed.
Print Assumptions C27_determined.
(* true iff all do, and iff some does after elements that all give false *)
Theorem C27_and_true : forall E l s c s' c', CombSat E (CAnd l) s c = (Ok true, s', c') <-> all_give E true l s c s' c'.
Proof.
  intros E l s c s' c'. split.
  - intros H. pose proof (C27_and E l s c) as D. rewrite H in D. inversion D; subst; [auto|congruence].
  - intros H. apply (C27_determined E true l s c); [apply C27_and|now apply ByAll].
Qed.
Print Assumptions C27_and_true.
Theorem C27_or_true : forall E l s c s' c', CombSat E (COr l) s c = (Ok true, s', c') <->
  exists l1 k l2 s1 c1, l = l1 ++ k :: l2 /\ all_give E false l1 s c s1 c1 /\ CombSat E k s1 c1 = (Ok true, s', c').
Proof.
  intros E l s c s' c'. split.
  - intros H. pose proof (C27_or E l s c) as D. rewrite H in D. inversion D; subst. exists l1, k, l2, s1, c1. auto.
  - intros (l1 & k & l2 & s1 & c1 & Q & A & B). apply (C27_determined E false l s c); [apply C27_or|].
    apply (ByOne E false l s c l1 k l2 s1 c1); auto. discriminate.
Qed.
Print Assumptions C27_or_true.
(* an error iff an element reached gives it *)
Theorem C27_error : forall E l s c e s' c',
  (CombSat E (CAnd l) s c = (Err e, s', c') <-> exists l1 k l2 s1 c1, l = l1 ++ k :: l2 /\ all_give E true l1 s c s1 c1 /\ CombSat E k s1 c1 = (Err e, s', c')) /\
  (CombSat E (COr l) s c = (Err e, s', c') <-> exists l1 k l2 s1 c1, l = l1 ++ k :: l2 /\ all_give E false l1 s c s1 c1 /\ CombSat E k s1 c1 = (Err e, s', c')).
Proof.
  intros E l s c e s' c'. split; split.
  - intros H. pose proof (C27_and E l s c) as D. rewrite H in D. inversion D; subst. exists l1, k, l2, s1, c1. auto.
  - intros (l1 & k & l2 & s1 & c1 & Q & A & B). apply (C27_determined E true l s c); [apply C27_and|].
    apply (ByOne E true l s c l1 k l2 s1 c1); auto. discriminate.
  - intros H. pose proof (C27_or E l s c) as D. rewrite H in D. inversion D; subst. exists l1, k, l2, s1, c1. auto.
  - intros (l1 & k & l2 & s1 & c1 & Q & A & B). apply (C27_determined E false l s c); [apply C27_or|].
    apply (ByOne E false l s c l1 k l2 s1 c1); auto. discriminate.
Qed.
Print Assumptions C27_error.
(* a panic iff an element reached panics, and a nil element does *)
Theorem C27_panic : forall E l s c s' c',
  (CombSat E (CAnd l) s c = (Panic, s', c') <-> exists l1 k l2 s1 c1, l = l1 ++ k :: l2 /\ all_give E true l1 s c s1 c1 /\ CombSat E k s1 c1 = (Panic, s', c')) /\
  (CombSat E (COr l) s c = (Panic, s', c') <-> exists l1 k l2 s1 c1, l = l1 ++ k :: l2 /\ all_give E false l1 s c s1 c1 /\ CombSat E k s1 c1 = (Panic, s', c')) /\
  CombSat E CNil s c = (Panic, s, c).
Proof.
  intros E l s c s' c'. split; [|split]; [split|split|reflexivity].
  - intros H. pose proof (C27_and E l s c) as D. rewrite H in D. inversion D; subst. exists l1, k, l2, s1, c1. auto.
  - intros (l1 & k & l2 & s1 & c1 & Q & A & B). apply (C27_determined E true l s c); [apply C27_and|].
    apply (ByOne E true l s c l1 k l2 s1 c1); auto. discriminate.
  - intros H. pose proof (C27_or E l s c) as D. rewrite H in D. inversion D; subst. exists l1, k, l2, s1, c1. auto.
  - intros (l1 & k & l2 & s1 & c1 & Q & A & B). apply (C27_determined E false l s c); [apply C27_or|].
    apply (ByOne E false l s c l1 k l2 s1 c1); auto. discriminate.
Qed.
Print Assumptions C27_panic.

(* true, then false: the failing third element is not reached; in the other order it is. *)
Definition yes : comb := CAtom sample false.
Definition no : comb := CAtom sample true.
Definition failing : comb := CAtom (QAtom (FullC (mkQConst "" [ONE]))) false.
Definition fresh_solver : solver := mkSolver "" 0.
Definition verdict (k : comb) : res bool * nat := let '(r, s, _) := CombSat ideal k fresh_solver (BasicQContext stump) in (r, bs_calls s).
Example C27_cases :
  verdict yes = (Ok true, 1%nat) /\ verdict (CAnd [yes; no; failing]) = (Ok false, 2%nat) /\
  verdict (COr [no; yes; failing]) = (Ok true, 2%nat) /\
  verdict (CAnd [yes; no; CNil]) = (Ok false, 2%nat) /\ verdict (CAnd [yes; CNil; no]) = (Panic, 1%nat) /\
  verdict (COr [yes; CNil]) = (Ok true, 1%nat) /\ verdict (COr [no; CNil; yes]) = (Panic, 1%nat) /\
  verdict (CAnd [CAnd []; COr [COr []; yes]; yes]) = (Ok true, 2%nat) /\
  (exists e n, verdict failing = (Err e, n)) /\
  exists e n, verdict (COr [no; failing; yes]) = (Err e, n).
Proof.
  repeat split; [vm_compute; reflexivity..|eexists; eexists; vm_compute; reflexivity|eexists; eexists; vm_compute; reflexivity].
Qed.
