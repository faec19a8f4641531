(* Property C35: CNF values and the arrays they share. *)
From Verif Require Import GoBase GoLemmas Cnf Query Walk Atoms Logop CnfHeap HeapLemmas HeapOps HeapEnc PropContext.
From Coq Require Import Permutation.
Local Open Scope string_scope.
Local Open Scope Z_scope.
Local Open Scope list_scope.

(* A heap of the running program: the package's constants are where they were
   put when it started. *)
Definition started (H : heap) : Prop :=
  array (outs H) 0 = [] /\ array (outs H) 1 = [nil_slice] /\ array (ints H) 0 = [] /\ (2 <= length (outs H))%nat /\ (1 <= length (ints H))%nat.

(* No array that existed in H was written to. *)
Definition untouched (H H' : heap) : Prop :=
  (forall a, (a < length (outs H))%nat -> array (outs H') a = array (outs H) a) /\
  (forall a, (a < length (ints H))%nat -> array (ints H') a = array (ints H) a).

Definition frozen {A} (st : list (list A)) (a : nat) : nat := length (array st a).
Lemma frozen_bounded : forall A (st : list (list A)), bounded (frozen st) st.
Proof. intros A st a Ha. unfold frozen, array. now rewrite nth_overflow. Qed.
Lemma started_inv : forall H, started H -> inv (frozen (outs H)) (frozen (ints H)) H [] [].
Proof.
  intros H (S1 & S2 & S3 & S4 & S5). constructor; auto; try apply frozen_bounded; try constructor. unfold frozen. now rewrite S2.
  split; unfold frozen; [now rewrite S1|now rewrite S3].
Qed.
Lemma frozen_untouched : forall H H', extH (frozen (outs H)) (frozen (ints H)) H H' -> untouched H H'.
Proof.
  intros H H' [[_ A] [_ B]]. split; intros a Ha.
  - destruct (A a Ha) as [L E]. unfold frozen in E. rewrite (firstn_all2 (array (outs H') a)), firstn_all in E by lia. exact E.
  - destruct (B a Ha) as [L E]. unfold frozen in E. rewrite (firstn_all2 (array (ints H') a)), firstn_all in E by lia. exact E.
Qed.

(* However append grows slices, and whatever is already in memory: encoding a
   query on shared arrays has the same outcome as on values, and no slice that
   existed before is changed. *)
Theorem C35_encoding : forall spare q c H, started H ->
  match enc q c, henc spare q c H with
  | (r, c'), (rh, ch, H') =>
      ch = c' /\ untouched H H' /\
      match r, rh with
      | Ok f, Ok g => hread H' g = f
      | Err e, Err e' => e = e'
      | Panic, Panic | Hang, Hang => True
      | _, _ => False
      end
  end.
Proof.
  intros spare q c H S. pose proof (henc_refines spare _ _ q c H [] [] (started_inv H S)) as R. unfold sim in R.
  destruct (enc q c) as [r c'], (henc spare q c H) as [[rh ch] H']. destruct R as (-> & [X _] & R). split; auto. split; [now apply frozen_untouched|].
  destruct r, rh; auto. apply R.
Qed.
Print Assumptions C35_encoding.

(* ---- CNFs each of which is used once ---- *)

Inductive cexp :=
| XTrue | XFalse
| XFrom (cls : list clause)
| XSem (x : cexp) (cls : list clause)
| XCons (x : cexp) (cls : list clause)
| XConj (x y : cexp)
| XNeg (x : cexp) (o : option Z).
Fixpoint value (x : cexp) : CNF :=
  match x with
  | XTrue => TrueCNF
  | XFalse => FalseCNF
  | XFrom cls => FromClauses cls
  | XSem x cls => AppendSemantics (value x) cls
  | XCons x cls => AppendConsistency (value x) cls
  | XConj x y => Conjunction (value x) (value y)
  | XNeg x o => Negate (value x) o
  end.
Fixpoint run (spare : heap -> nat) (x : cexp) (H : heap) : hCNF * heap :=
  match x with
  | XTrue => (hTrue, H)
  | XFalse => (hFalse, H)
  | XFrom cls => let (s, H) := build spare cls H in (hFromClauses H s, H)
  | XSem x cls => let (c, H) := run spare x H in let (s, H) := build spare cls H in hAppendSemantics spare c s H
  | XCons x cls => let (c, H) := run spare x H in let (s, H) := build spare cls H in hAppendConsistency spare c s H
  | XConj x y => let (c, H) := run spare x H in let (oc, H) := run spare y H in hConjunction spare c oc H
  | XNeg x o => let (c, H) := run spare x H in hNegate spare c o H
  end.

Lemma run_spec : forall spare bo bi x H c H' LO LI, run spare x H = (c, H') -> inv bo bi H LO LI ->
  inv bo bi H' (h_s c :: h_c c :: LO) LI /\ hread H' c = value x /\ rest bo bi H H' LO LI.
Proof.
  intros spare bo bi. induction x as [| |cls|x IH cls|x IH cls|x IHx y IHy|x IH o]; intros H c H' LO LI E I; cbn [run value] in *.
  - injection E as <- <-. destruct (hTrue_holds bo bi H LO LI I). split; auto. split; auto. apply rest_refl.
  - injection E as <- <-. destruct (hFalse_holds bo bi H LO LI I). split; auto. split; auto. apply rest_refl.
  - destruct (build spare cls H) as [s H1] eqn:E1. injection E as <- <-. destruct (build_spec spare bo bi _ _ _ _ _ _ E1 I) as (I1 & R1 & K1).
    cbn [hFromClauses h_s h_c]. split; [eapply inv_perm; [apply inv_nil; exact I1|apply perm_swap|reflexivity]|]. split; auto. unfold hread, hFromClauses. cbn [h_tv h_s h_c]. now rewrite R1.
  - destruct (run spare x H) as [c1 H1] eqn:E1. destruct (build spare cls H1) as [s H2] eqn:E2. destruct (IH _ _ _ _ _ E1 I) as (I1 & R1 & K1).
    destruct (build_spec spare bo bi _ _ _ _ _ _ E2 I1) as (I2 & R2 & K2).
    assert (J : inv bo bi H2 (h_s c1 :: h_c c1 :: s :: LO) LI) by (eapply inv_perm; [exact I2|rewrite perm_swap; apply perm_skip, perm_swap|reflexivity]).
    destruct (hAppendSemantics_spec spare bo bi _ _ _ _ _ _ _ E J) as (I3 & R3 & K3 & _). split; [exact I3|]. split.
    + rewrite R3, R2. f_equal. rewrite <- R1. destruct K2 as [_ [K2 _]]. unfold hread. rewrite !K2; simpl; auto.
    + eapply rest_trans; [exact K1|eapply rest_trans; [destruct K2 as [X2 K2]; split; [exact X2|eapply keep_incl; [exact K2| |apply incl_refl]]|exact K3| |]|apply incl_refl|apply incl_refl]; intros y Hy; simpl; auto. apply in_or_app; auto.
  - destruct (run spare x H) as [c1 H1] eqn:E1. destruct (build spare cls H1) as [s H2] eqn:E2. destruct (IH _ _ _ _ _ E1 I) as (I1 & R1 & K1).
    destruct (build_spec spare bo bi _ _ _ _ _ _ E2 I1) as (I2 & R2 & K2).
    assert (J : inv bo bi H2 (h_s c1 :: h_c c1 :: s :: LO) LI) by (eapply inv_perm; [exact I2|rewrite perm_swap; apply perm_skip, perm_swap|reflexivity]).
    destruct (hAppendConsistency_spec spare bo bi _ _ _ _ _ _ _ E J) as (I3 & R3 & K3). split; [exact I3|]. split.
    + rewrite R3, R2. f_equal. rewrite <- R1. destruct K2 as [_ [K2 _]]. unfold hread. rewrite !K2; simpl; auto.
    + eapply rest_trans; [exact K1|eapply rest_trans; [destruct K2 as [X2 K2]; split; [exact X2|eapply keep_incl; [exact K2| |apply incl_refl]]|exact K3| |]|apply incl_refl|apply incl_refl]; intros y Hy; simpl; auto. apply in_or_app; auto.
  - destruct (run spare x H) as [c1 H1] eqn:E1. destruct (run spare y H1) as [c2 H2] eqn:E2. destruct (IHx _ _ _ _ _ E1 I) as (I1 & R1 & K1).
    destruct (IHy _ _ _ _ _ E2 I1) as (I2 & R2 & [X2 K2]).
    assert (J : inv bo bi H2 (h_s c1 :: h_c c1 :: h_s c2 :: h_c c2 :: LO) LI).
    { eapply inv_perm; [exact I2| |reflexivity]. change (Permutation ([h_s c2; h_c c2] ++ [h_s c1; h_c c1] ++ LO) ([h_s c1; h_c c1] ++ [h_s c2; h_c c2] ++ LO)).
      rewrite !app_assoc. apply Permutation_app_tail, Permutation_app_comm. }
    destruct (hConjunction_spec spare bo bi _ _ _ _ _ _ _ E J) as (I3 & R3 & K3). split; [exact I3|]. split.
    + rewrite R3, R2. f_equal. rewrite <- R1. destruct K2 as [K2 _]. unfold hread. rewrite !K2; simpl; auto.
    + eapply rest_trans; [exact K1|eapply rest_trans; [split; [exact X2|eapply keep_incl; [exact K2| |apply incl_refl]]|exact K3| |]|apply incl_refl|apply incl_refl]; intros z Hz; simpl; auto.
  - destruct (run spare x H) as [c1 H1] eqn:E1. destruct (IH _ _ _ _ _ E1 I) as (I1 & R1 & K1).
    destruct (hNegate_spec spare bo bi _ _ _ _ _ _ _ E I1) as (I2 & R2 & K2). split; [exact I2|]. split; [congruence|]. eapply rest_trans; eauto; apply incl_refl.
Qed.

(* As long as no CNF is used twice, the methods compute on values. *)
Theorem C35_used_once : forall spare x H, started H -> let (c, H') := run spare x H in hread H' c = value x /\ untouched H H'.
Proof.
  intros spare x H S. destruct (run spare x H) as [c H'] eqn:E. destruct (run_spec spare _ _ _ _ _ _ _ _ E (started_inv H S)) as (_ & R & X & _). split; auto.
  now apply frozen_untouched.
Qed.
Print Assumptions C35_used_once.

(* ---- one call ---- *)

(* CNFs whose slices do not overlap (the constants of the package among them). *)
Definition slices (cs : list hCNF) : list slice := flat_map (fun c => [h_s c; h_c c]) cs.
Definition disjoint (H : heap) (cs : list hCNF) : Prop :=
  sep (fun _ => 0%nat) (outs H) (mkSl 1 1 :: slices cs) /\ sep (fun _ => 0%nat) (ints H) (nil_slice :: flat_map (sread (outs H)) (slices cs)).

Definition reach (L : list slice) (a : nat) : nat := list_max (map s_len (filter (fun s => (s_arr s =? a)%nat) L)).
Lemma list_max_in : forall l x, In x l -> (x <= list_max l)%nat.
Proof. induction l as [|y l IH]; intros x []; simpl; [subst; lia|]. specialize (IH _ H). lia. Qed.
Lemma list_max_below : forall l n, (forall x, In x l -> (x <= n)%nat) -> (list_max l <= n)%nat.
Proof. induction l as [|y l IH]; intros n H; simpl; [lia|]. pose proof (H y (or_introl eq_refl)). specialize (IH n (fun x Hx => H x (or_intror Hx))). lia. Qed.
Lemma reach_in : forall L s, In s L -> (s_len s <= reach L (s_arr s))%nat.
Proof. intros L s H. apply list_max_in, in_map, filter_In. split; auto. apply Nat.eqb_refl. Qed.
Lemma reach_below : forall L a n, (forall s, In s L -> s_arr s = a -> (s_len s <= n)%nat) -> (reach L a <= n)%nat.
Proof. intros L a n H. apply list_max_below. intros x Hx. apply in_map_iff in Hx as (s & <- & Hs). apply filter_In in Hs as [Hs Q]. apply Nat.eqb_eq in Q. auto. Qed.
Lemma sep_same : forall A b (st : list (list A)) L, sep b st L -> forall s s', In s L -> In s' L -> s_arr s = s_arr s' -> s_len s = s_len s'.
Proof.
  intros A b st L S. induction S as [|x L G F S IH]; intros s s' [] [] E; subst; auto.
  - rewrite Forall_forall in F. destruct (F _ H0) as [N|[T T']]; [contradiction|]. unfold tight, cap in *. congruence.
  - rewrite Forall_forall in F. destruct (F _ H) as [N|[T T']]; [congruence|]. unfold tight, cap in *. congruence.
Qed.
Lemma sep_reach : forall A (st : list (list A)) L, sep (fun _ => 0%nat) st L -> sep (reach L) st L.
Proof.
  intros A st L S. assert (G : forall s, In s L -> good (reach L) st s).
  { intros s Hs. destruct (sep_good _ _ _ _ S Hs) as [G1 G2 _]. constructor; auto. apply reach_below. intros s' Hs' E. rewrite (sep_same _ _ _ _ S s' s); auto. }
  revert G. generalize (reach L). intros b G. induction S as [|s L G1 F S IH]; constructor; auto. apply G. now left. apply IH. intros; apply G; now right.
Qed.
Lemma reach_bounded : forall A (st : list (list A)) L, sep (fun _ => 0%nat) st L -> bounded (reach L) st.
Proof.
  intros A st L S a Ha. assert (reach L a <= 0)%nat; [|lia]. apply reach_below. intros s Hs E. destruct (sep_good _ _ _ _ S Hs). lia.
Qed.

Lemma disjoint_inv : forall H cs, started H -> disjoint H cs ->
  inv (reach (mkSl 1 1 :: slices cs)) (reach (nil_slice :: flat_map (sread (outs H)) (slices cs))) H (slices cs) [].
Proof.
  intros H cs (S1 & S2 & S3 & S4 & S5) [D1 D2]. pose proof (sep_reach _ _ _ D1) as R1. pose proof (sep_reach _ _ _ D2) as R2. constructor; auto.
  - now apply (reach_bounded _ (outs H)).
  - now apply (reach_bounded _ (ints H)).
  - split; [|split].
    + apply Nat.le_antisymm; [apply reach_below|apply (reach_in _ (mkSl 1 1)); now left]. intros s Hs E. destruct (sep_good _ _ _ _ D1 Hs) as [_ L _]. unfold cap in L. rewrite E, S2 in L. exact L.
    + apply Nat.le_0_r, reach_below. intros s Hs E. destruct (sep_good _ _ _ _ D1 Hs) as [_ L _]. unfold cap in L. rewrite E, S1 in L. exact L.
    + apply Nat.le_0_r, reach_below. intros s Hs E. destruct (sep_good _ _ _ _ D2 Hs) as [_ L _]. unfold cap in L. rewrite E, S3 in L. exact L.
  - now inversion R1.
  - now inversion R2.
Qed.
Lemma reach_reads : forall A (st st' : list (list A)) L s, ext (reach L) st st' -> In s L -> (s_arr s < length st)%nat -> sread st' s = sread st s.
Proof.
  intros A st st' L s [_ X] Hs Ha. destruct (X _ Ha) as [_ E]. pose proof (reach_in L s Hs) as R. unfold sread.
  rewrite <- (Nat.min_l _ _ R), <- !firstn_firstn. now rewrite E.
Qed.
Lemma disjoint_reads : forall H H' cs, disjoint H cs -> extH (reach (mkSl 1 1 :: slices cs)) (reach (nil_slice :: flat_map (sread (outs H)) (slices cs))) H H' ->
  forall c, In c cs -> hread H' c = hread H c.
Proof.
  intros H H' cs [D1 D2] [X1 X2] c Hc.
  assert (G : forall s, In s (slices cs) -> clauses_of H' s = clauses_of H s).
  { intros s Hs. unfold clauses_of. rewrite (reach_reads _ _ _ _ s X1); [|now right|apply (sep_good _ _ _ _ D1); now right].
    apply map_ext_in. intros i Hi. assert (Q : In i (nil_slice :: flat_map (sread (outs H)) (slices cs))) by (right; apply in_flat_map; eauto).
    apply (reach_reads _ _ _ _ i X2); auto. apply (sep_good _ _ _ _ D2 Q). }
  unfold hread. rewrite !G; auto; apply in_flat_map; exists c; simpl; auto.
Qed.

(* the methods of CNF that return a CNF *)
Inductive call := CallSem (cls : list clause) | CallCons (cls : list clause) | CallConj (oc : hCNF) | CallNeg (o : option Z).
Definition perform (spare : heap -> nat) (c : hCNF) (k : call) (H : heap) : hCNF * heap :=
  match k with
  | CallSem cls => let (s, H) := build spare cls H in hAppendSemantics spare c s H
  | CallCons cls => let (s, H) := build spare cls H in hAppendConsistency spare c s H
  | CallConj oc => hConjunction spare c oc H
  | CallNeg o => hNegate spare c o H
  end.
Definition result (H : heap) (c : hCNF) (k : call) : CNF :=
  match k with
  | CallSem cls => AppendSemantics (hread H c) cls
  | CallCons cls => AppendConsistency (hread H c) cls
  | CallConj oc => Conjunction (hread H c) (hread H oc)
  | CallNeg o => Negate (hread H c) o
  end.
Definition others (k : call) : list hCNF := match k with CallConj oc => [oc] | _ => [] end.

Lemma slices_perm : forall l l', Permutation l l' -> Permutation (slices l) (slices l').
Proof. intros. now apply Permutation_flat_map. Qed.
(* One call on CNFs that do not overlap: the right result, and all of them,
   the receiver and the argument included, are what they were. *)
Theorem C35_one_call : forall spare H c k cs, started H -> disjoint H (c :: others k ++ cs) ->
  let (r, H') := perform spare c k H in
  hread H' r = result H c k /\ forall x, In x (c :: others k ++ cs) -> hread H' x = hread H x.
Proof.
  intros spare H c k cs S D. destruct (perform spare c k H) as [r H'] eqn:E. pose proof (disjoint_inv _ _ S D) as I.
  pose proof (disjoint_reads H H' _ D) as RD. revert I RD. generalize (reach (mkSl 1 1 :: slices (c :: others k ++ cs))), (reach (nil_slice :: flat_map (sread (outs H)) (slices (c :: others k ++ cs)))).
  intros bo bi I RD. cbn [slices flat_map app] in I. fold (slices (others k ++ cs)) in I.
  assert (Q : hread H' r = result H c k /\ extH bo bi H H').
  { destruct k as [cls|cls|oc|o]; cbn [perform result others app] in *.
    - destruct (build spare cls H) as [s H1] eqn:E1. destruct (build_spec spare bo bi _ _ _ _ _ _ E1 I) as (I1 & R1 & X1 & [K1 _]).
      assert (J : inv bo bi H1 (h_s c :: h_c c :: s :: slices cs) []) by (eapply inv_perm; [exact I1|rewrite perm_swap; apply perm_skip, perm_swap|reflexivity]).
      destruct (hAppendSemantics_spec spare bo bi _ _ _ _ _ _ _ E J) as (_ & R2 & [X2 _] & _). split; [|eapply extH_trans; eauto]. rewrite R2, R1. f_equal. unfold hread. rewrite !K1; simpl; auto.
    - destruct (build spare cls H) as [s H1] eqn:E1. destruct (build_spec spare bo bi _ _ _ _ _ _ E1 I) as (I1 & R1 & X1 & [K1 _]).
      assert (J : inv bo bi H1 (h_s c :: h_c c :: s :: slices cs) []) by (eapply inv_perm; [exact I1|rewrite perm_swap; apply perm_skip, perm_swap|reflexivity]).
      destruct (hAppendConsistency_spec spare bo bi _ _ _ _ _ _ _ E J) as (_ & R2 & [X2 _]). split; [|eapply extH_trans; eauto]. rewrite R2, R1. f_equal. unfold hread. rewrite !K1; simpl; auto.
    - destruct (hConjunction_spec spare bo bi _ _ _ _ _ _ _ E I) as (_ & R2 & [X2 _]). auto.
    - destruct (hNegate_spec spare bo bi _ _ _ _ _ _ _ E I) as (_ & R2 & [X2 _]). auto. }
  destruct Q as [Q X]. split; auto.
Qed.
Print Assumptions C35_one_call.

(* ---- two calls ---- *)

(* The room Go's append leaves: arrays of 1, 2 and 4 clauses for the first
   three clauses appended one by one. *)
Definition go_spare (H : heap) : nat := if (length (outs H) =? 7)%nat then 1 else 0.
Definition three : CNF := mkCNF 3 [[1]; [2]; [3]] [].
Definition grown : hCNF * heap := run go_spare (XSem (XSem (XSem XTrue [[1]]) [[2]]) [[3]]) start_heap.
Lemma start_started : started start_heap.
Proof. repeat split; auto. Qed.

(* c := CNF{} with three clauses appended; a := c.AppendSemantics({4});
   b := c.AppendSemantics({5}). The second call changes a. *)
Theorem C35_append_refuted : let (c, H) := grown in let (a, H1) := perform go_spare c (CallSem [[4]]) H in let (b, H2) := perform go_spare c (CallSem [[5]]) H1 in
  hread H c = three /\ hread H1 a = mkCNF 4 [[1]; [2]; [3]; [4]] [] /\ hread H2 a = mkCNF 4 [[1]; [2]; [3]; [5]] [].
Proof. vm_compute. auto. Qed.
Print Assumptions C35_append_refuted.

(* A clause with room for one more (three literals appended one by one):
   c := FromClauses({1,2,3}); a := c.Negate(); b := c.Negate(10). The second
   call changes a clause of a. *)
Definition roomy : hCNF * heap := run (fun H => if (length (ints H) =? 1)%nat then 1%nat else 0%nat) (XFrom [[1; 2; 3]]) start_heap.
Theorem C35_negate_refuted : let (c, H) := roomy in
  let (a, H1) := perform (fun _ => 0%nat) c (CallNeg None) H in let (b, H2) := perform (fun _ => 0%nat) c (CallNeg (Some 10)) H1 in
  hread H c = FromClauses [[1; 2; 3]] /\
  hread H1 a = mkCNF 4 [[4]] [[-1; -4]; [-2; -4]; [-3; -4]; [1; 2; 3; 4]] /\
  hread H2 a = mkCNF 4 [[4]] [[-1; -4]; [-2; -4]; [-3; -4]; [1; 2; 3; 11]] /\ hread H2 a <> hread H1 a.
Proof. vm_compute. repeat split; auto. discriminate. Qed.
Print Assumptions C35_negate_refuted.

(* ---- cases ---- *)

(* a call that does write into an array of its receiver *)
Example C35_one_call_case : let (c, H) := grown in started H /\ disjoint H [c] /\
  let (a, H1) := perform go_spare c (CallSem [[4]]) H in s_arr (h_s a) = s_arr (h_s c) /\ array (outs H1) (s_arr (h_s c)) <> array (outs H) (s_arr (h_s c)).
Proof.
  vm_compute. split; [repeat split; auto; repeat constructor|]. split; [|split; [reflexivity|discriminate]].
  split; repeat first [apply sep_nil|apply sep_cons|apply Forall_nil|apply Forall_cons]; try (constructor; cbn; lia); first [left; discriminate|right; split; reflexivity].
Qed.
(* the query "x or not (x is full)" on a heap that leaves room everywhere *)
Example C35_encoding_case : match henc (fun _ => 5%nat) (QWith "x" (QOr (QAtom (FullV "x")) (QNot (QAtom (FullV "x"))))) (BasicQContext stump) start_heap,
    enc (QWith "x" (QOr (QAtom (FullV "x")) (QNot (QAtom (FullV "x"))))) (BasicQContext stump) with
  | (Ok g, _, H), (Ok f, _) => hread H g = f /\ (3 < length (cClauses f))%nat /\ existsb (fun a => existsb (fun s => (s_len s <? cap (ints H) s)%nat) (sread (outs H) a)) [h_s g; h_c g] = true
  | _, _ => False
  end.
Proof. vm_compute. repeat split; lia. Qed.
Example C35_used_once_case : let (c, H) := run (fun _ => 2%nat) (XNeg (XConj (XNeg (XFrom [[1; 2]; [3; 4]]) None) (XSem XFalse [[5]])) (Some 9)) start_heap in
  hread H c = value (XNeg (XConj (XNeg (XFrom [[1; 2]; [3; 4]]) None) (XSem XFalse [[5]])) (Some 9)).
Proof. vm_compute. reflexivity. Qed.
