(* The CNF methods on slices that do not overlap give what the methods on lists
   give. *)
From Verif Require Import GoBase GoLemmas Cnf Query Walk Atoms Logop CnfHeap HeapLemmas.
From Coq Require Import Permutation.
Local Open Scope Z_scope.
Local Open Scope list_scope.

Section Ops.
Variable spare : heap -> nat.
Variables bo bi : nat -> nat.
Notation inv := (inv bo bi).
Notation extH := (extH bo bi).

(* What is kept of the rest of the heap. *)
Definition rest (H H' : heap) (LO LI : list slice) : Prop := extH H H' /\ keep H H' LO LI.
Lemma rest_refl : forall H LO LI, rest H H LO LI.
Proof. split; [apply extH_refl|apply keep_refl]. Qed.
Lemma rest_trans : forall H1 H2 H3 LO LI LO' LI', rest H1 H2 LO LI -> rest H2 H3 LO' LI' -> incl LO LO' -> incl LI LI' -> rest H1 H3 LO LI.
Proof.
  intros H1 H2 H3 LO LI LO' LI' [A B] [C D] I J. split; [eapply extH_trans; eauto|]. eapply keep_trans; eauto. eapply keep_incl; eauto.
Qed.

Lemma sread_len : forall (A : Type) b (st : list (list A)) s, good b st s -> length (sread st s) = s_len s.
Proof. intros A b st s []. unfold sread. rewrite firstn_length. unfold cap in *. lia. Qed.
Lemma out_len : forall H LO LI t, inv H LO LI -> In t LO -> length (clauses_of H t) = s_len t.
Proof.
  intros H LO LI t I Ht. unfold clauses_of. rewrite map_length. apply (sread_len _ bo). apply (sep_good _ _ _ _ (i_so _ _ _ _ _ I) Ht).
Qed.
Lemma in_len : forall H LO LI i, inv H LO LI -> In i LI -> length (sread (ints H) i) = s_len i.
Proof. intros H LO LI i I Hi. apply (sread_len _ bi). apply (sep_good _ _ _ _ (i_si _ _ _ _ _ I)). apply in_or_app. auto. Qed.
Lemma in_out_len : forall H LO LI t i, inv H LO LI -> In t LO -> In i (sread (outs H) t) -> length (sread (ints H) i) = s_len i.
Proof. intros H LO LI t i I Ht Hi. apply (sread_len _ bi). apply (sep_good _ _ _ _ (i_si _ _ _ _ _ I)). eapply in_inner; eauto. Qed.

Lemma hAppendSemantics_spec : forall c s H c' H' LO LI, hAppendSemantics spare c s H = (c', H') -> inv H (h_s c :: h_c c :: s :: LO) LI ->
  inv H' (h_s c' :: h_c c' :: LO) LI /\ hread H' c' = AppendSemantics (hread H c) (clauses_of H s) /\ rest H H' (h_c c :: LO) (sread (outs H) s ++ LI) /\ h_c c' = h_c c.
Proof.
  intros c s H c' H' LO LI E I. unfold hAppendSemantics in E. destruct (append_outs spare H (h_s c) (sread (outs H) s)) as [r H1] eqn:E1. injection E as <- <-.
  assert (J : inv H (s :: h_s c :: h_c c :: LO) LI).
  { eapply inv_perm; [exact I| |reflexivity]. symmetry. rewrite perm_swap. apply perm_skip. apply perm_swap. }
  apply inv_open in J. destruct (append_outs_spec spare bo bi _ _ _ _ _ _ _ E1 J) as (I' & R & X & K & _).
  cbn [h_s h_c]. split; [exact I'|]. split; [|split; [split; [exact X|exact K]|reflexivity]].
  unfold hread, AppendSemantics. cbn [h_tv h_s h_c tv sClauses cClauses]. rewrite R. f_equal. apply K. now left.
Qed.
Lemma hAppendConsistency_spec : forall c s H c' H' LO LI, hAppendConsistency spare c s H = (c', H') -> inv H (h_s c :: h_c c :: s :: LO) LI ->
  inv H' (h_s c' :: h_c c' :: LO) LI /\ hread H' c' = AppendConsistency (hread H c) (clauses_of H s) /\ rest H H' (h_s c :: LO) (sread (outs H) s ++ LI).
Proof.
  intros c s H c' H' LO LI E I. unfold hAppendConsistency in E. destruct (append_outs spare H (h_c c) (sread (outs H) s)) as [r H1] eqn:E1. injection E as <- <-.
  assert (J : inv H (s :: h_c c :: h_s c :: LO) LI).
  { eapply inv_perm; [exact I| |reflexivity]. rewrite perm_swap. etransitivity; [apply perm_skip, perm_swap|]. apply perm_swap. }
  apply inv_open in J. destruct (append_outs_spec spare bo bi _ _ _ _ _ _ _ E1 J) as (I' & R & X & K & _).
  cbn [h_s h_c]. split; [eapply inv_perm; [exact I'|apply perm_swap|reflexivity]|]. split; [|split; [exact X|exact K]].
  unfold hread, AppendConsistency. cbn [h_tv h_s h_c tv sClauses cClauses]. rewrite R. f_equal. apply K. now left.
Qed.

Lemma hConjunction_spec : forall c oc H c' H' LO LI, hConjunction spare c oc H = (c', H') -> inv H (h_s c :: h_c c :: h_s oc :: h_c oc :: LO) LI ->
  inv H' (h_s c' :: h_c c' :: LO) LI /\ hread H' c' = Conjunction (hread H c) (hread H oc) /\ rest H H' LO LI.
Proof.
  intros c oc H c' H' LO LI E I. unfold hConjunction in E. destruct (hAppendSemantics spare c (h_s oc) H) as [r H1] eqn:E1.
  destruct (hAppendSemantics_spec _ _ _ _ _ _ _ E1 I) as (I1 & R1 & K1 & C1).
  assert (J1 : inv H1 (h_s (mkH (h_tv r) (h_s r) (h_c c)) :: h_c (mkH (h_tv r) (h_s r) (h_c c)) :: h_c oc :: LO) LI) by (cbn [h_s h_c]; rewrite <- C1; exact I1).
  destruct (hAppendConsistency_spec _ _ _ _ _ LO LI E J1) as (I2 & R2 & K2).
  split; [exact I2|]. split.
  - rewrite R2. unfold Conjunction. destruct K1 as [_ [K1 _]]. rewrite (K1 (h_c oc)) by (simpl; auto).
    unfold hread in R1. injection R1 as R3 R4 R5. unfold hread. cbn [h_tv h_s h_c cClauses]. rewrite C1 in R5. rewrite R3, R4, R5. reflexivity.
  - eapply rest_trans; [|exact K2| |].
    + destruct K1 as [X1 K1]. split; [exact X1|]. eapply keep_incl; [exact K1| |]; intros x Hx; simpl; auto. apply in_or_app. auto.
    + intros x Hx. simpl. auto.
    + intros x Hx. apply in_or_app. auto.
Qed.

Lemma append_each_spec : forall f lits cl H cl' H' LO LI, append_each spare f lits cl H = (cl', H') -> inv H (cl :: LO) LI ->
  inv H' (cl' :: LO) LI /\ clauses_of H' cl' = clauses_of H cl ++ map f lits /\ rest H H' LO LI.
Proof.
  induction lits as [|l r IH]; intros cl H cl' H' LO LI E I.
  - injection E as <- <-. split; auto. split; [symmetry; apply app_nil_r|apply rest_refl].
  - cbn [append_each] in E. destruct (new_ints H (f l) 0) as [x H1] eqn:E1. destruct (append_outs spare H1 cl [x]) as [cl1 H2] eqn:E2.
    destruct (new_ints_spec bo bi _ _ _ _ _ _ _ E1 I) as (I1 & R1 & _ & X1 & K1).
    destruct (append_outs_spec spare bo bi _ _ _ _ _ LO LI E2 I1) as (I2 & R2 & X2 & K2 & _).
    destruct (IH _ _ _ _ _ _ E I2) as (I3 & R3 & K3).
    split; [exact I3|]. split.
    + rewrite R3, R2. cbn [map]. rewrite R1, <- app_assoc. f_equal. apply K1. now left.
    + eapply rest_trans; [|exact K3|apply incl_refl|apply incl_refl]. split; [eapply extH_trans; eauto|].
      eapply keep_trans; [eapply keep_incl; [exact K1| |]|eapply keep_incl; [exact K2| |]]; try apply incl_refl; intros y Hy; simpl; auto.
Qed.

Definition loop_rel (H : heap) (LO LI : list slice) (r : Z + (Z * slice * slice)) (r' : Z + (Z * list clause * clause)) : Prop :=
  match r, r' with
  | inl a, inl b => a = b
  | inr (a, cl, en), inr (b, cls, encl) => a = b /\ inv H (cl :: LO) (en :: LI) /\ clauses_of H cl = cls /\ sread (ints H) en = encl
  | _, _ => False
  end.
Lemma htseytin_loop_spec : forall scls tv cl en H r H' LO LI, htseytin_loop spare scls tv cl en H = (r, H') -> inv H (cl :: LO) (en :: scls ++ LI) ->
  loop_rel H' LO LI r (tseytin_loop (map (sread (ints H)) scls) tv (clauses_of H cl) (sread (ints H) en)) /\ inv H' LO LI /\ rest H H' LO LI.
Proof.
  induction scls as [|s scls IH]; intros tv cl en H r H' LO LI E I.
  - injection E as <- <-. split; [split; auto|]. split; [|apply rest_refl]. apply inv_forget in I. now apply (inv_drop _ _ _ _ _ [en]) in I.
  - cbn [htseytin_loop] in E. cbn [map tseytin_loop].
    destruct (sread (ints H) s) as [|l1 [|l2 ls]] eqn:L.
    + injection E as <- <-. split; [reflexivity|]. split; [|apply rest_refl]. apply inv_forget in I. now apply (inv_drop _ _ _ _ _ (en :: s :: scls)) in I.
    + destruct (append_ints spare H en [- l1]) as [en1 H1] eqn:E1.
      destruct (append_ints_spec spare bo bi _ _ _ _ _ _ _ E1 I) as (I1 & R1 & _ & X1 & K1).
      assert (J : inv H1 (cl :: LO) (en1 :: scls ++ LI)).
      { apply (inv_drop _ _ _ _ _ [s]). eapply inv_perm; [exact I1|reflexivity|]. apply perm_swap. }
      destruct (IH _ _ _ _ _ _ _ _ E J) as (A & B & C). split; [|split; [exact B|]].
      * rewrite R1 in A. destruct K1 as [K1 K1']. rewrite (K1 cl) in A by (simpl; auto). erewrite map_ext_in in A; [exact A|]. intros i Hi. apply K1'. simpl. right. apply in_or_app. auto.
      * eapply rest_trans; [|exact C|apply incl_refl|apply incl_refl]. split; [exact X1|]. eapply keep_incl; [exact K1| |]; intros y Hy; simpl; auto. right. apply in_or_app. auto.
    + destruct (append_each spare (fun lit => [- lit; - (tv + 1)]) (l1 :: l2 :: ls) cl H) as [cl1 H1] eqn:E1.
      destruct (append_ints spare H1 s [tv + 1]) as [ex H2] eqn:E2. destruct (append_outs spare H2 cl1 [ex]) as [cl2 H3] eqn:E3.
      destruct (append_ints spare H3 en [tv + 1]) as [en4 H4] eqn:E4.
      destruct (append_each_spec _ _ _ _ _ _ _ _ E1 I) as (I1 & R1 & X1 & K1).
      assert (J1 : inv H1 (cl1 :: LO) (s :: en :: scls ++ LI)) by (eapply inv_perm; [exact I1|reflexivity|apply perm_swap]).
      destruct (append_ints_spec spare bo bi _ _ _ _ _ _ _ E2 J1) as (I2 & R2 & _ & X2 & K2).
      destruct (append_outs_spec spare bo bi _ _ _ _ _ LO (en :: scls ++ LI) E3 I2) as (I3 & R3 & X3 & K3 & N3).
      destruct (append_ints_spec spare bo bi _ _ _ _ _ _ _ E4 I3) as (I4 & R4 & _ & X4 & K4).
      destruct (IH _ _ _ _ _ _ _ _ E I4) as (A & B & C). destruct K1 as [K1 K1'], K2 as [K2 K2'], K3 as [K3 K3'], K4 as [K4 K4'].
      assert (SI : forall i, In i (scls ++ LI) -> sread (ints H4) i = sread (ints H) i).
      { intros i Hi. rewrite K4', K3', K2', K1'; simpl; auto. }
      split; [|split; [exact B|]].
      * assert (Q1 : clauses_of H4 cl2 = clauses_of H cl ++ map (fun lit => [- lit; - (tv + 1)]) (l1 :: l2 :: ls) ++ [(l1 :: l2 :: ls) ++ [tv + 1]]).
        { rewrite (K4 cl2), R3 by (simpl; auto). cbn [map]. rewrite R2, (K2 cl1), R1, (K1' s), L by (simpl; auto). now rewrite <- app_assoc. }
        assert (Q2 : sread (ints H4) en4 = sread (ints H) en ++ [tv + 1]).
        { rewrite R4. f_equal. rewrite K3', K2', K1'; simpl; auto. }
        rewrite Q1, Q2 in A. rewrite <- app_assoc.
        assert (Q3 : map (sread (ints H4)) scls = map (sread (ints H)) scls) by (apply map_ext_in; intros i Hi; apply SI, in_or_app; auto).
        rewrite Q3 in A. exact A.
      * eapply rest_trans; [|exact C|apply incl_refl|apply incl_refl]. split; [repeat (eapply extH_trans; [eassumption|]); apply extH_refl|]. split.
        -- intros t Ht. rewrite K4, K3, K2, K1; simpl; auto.
        -- intros i Hi. apply SI, in_or_app. auto.
Qed.

Lemma hadd_spec : forall c en H c' H' LO LI, haddNegationIFFClauses spare c en H = (c', H') -> inv H (h_c c :: LO) (en :: LI) ->
  inv H' (h_s c' :: h_c c' :: LO) LI /\ hread H' c' = addNegationIFFClauses (hread H c) (sread (ints H) en) /\ rest H H' LO LI.
Proof.
  intros c en H c' H' LO LI E I. unfold haddNegationIFFClauses in E.
  destruct (append_each spare (fun lit => [- lit; h_tv c + 1]) (sread (ints H) en) (h_c c) H) as [c1 H1] eqn:E1.
  destruct (append_ints spare H1 en [- (h_tv c + 1)]) as [ex H2] eqn:E2. destruct (append_outs spare H2 c1 [ex]) as [c2 H3] eqn:E3.
  destruct (new_ints H3 [h_tv c + 1] 0) as [u H4] eqn:E4. destruct (new_outs H4 [u] 0) as [sc H5] eqn:E5. injection E as <- <-.
  destruct (append_each_spec _ _ _ _ _ _ _ _ E1 I) as (I1 & R1 & X1 & K1).
  destruct (append_ints_spec spare bo bi _ _ _ _ _ _ _ E2 I1) as (I2 & R2 & _ & X2 & K2).
  destruct (append_outs_spec spare bo bi _ _ _ _ _ LO LI E3 I2) as (I3 & R3 & X3 & K3 & N3).
  destruct (new_ints_spec bo bi _ _ _ _ _ _ _ E4 I3) as (I4 & R4 & _ & X4 & K4).
  destruct (new_outs_spec bo bi _ _ _ _ _ _ LI E5 I4) as (I5 & _ & R5 & X5 & K5).
  destruct K1 as [K1 K1'], K2 as [K2 K2'], K3 as [K3 K3'], K4 as [K4 K4'], K5 as [K5 K5'].
  cbn [h_s h_c]. split; [exact I5|]. split; [|split].
  - unfold hread, addNegationIFFClauses. cbn [h_tv h_s h_c tv sClauses cClauses]. rewrite R5. cbn [map]. rewrite R4. f_equal.
    rewrite K5, K4, R3 by (simpl; auto). cbn [map]. rewrite R2, (K2 c1), R1, (K1' en) by (simpl; auto). reflexivity.
  - repeat (eapply extH_trans; [eassumption|]). apply extH_refl.
  - split.
    + intros t Ht. rewrite K5, K4, K3, K2, K1; simpl; auto.
    + intros i Hi. rewrite K5', K4', K3', K2', K1'; simpl; auto.
Qed.

Lemma htseytinNegation_spec : forall c tv0 H c' H' LO LI, htseytinNegation spare c tv0 H = (c', H') -> inv H (h_s c :: h_c c :: LO) LI ->
  inv H' (h_s c' :: h_c c' :: LO) LI /\ hread H' c' = tseytinNegation (hread H c) tv0 /\ rest H H' LO LI.
Proof.
  intros c tv0 H c' H' LO LI E I. unfold htseytinNegation in E.
  destruct (new_outs H [] 0) as [cl H1] eqn:E1. destruct (new_ints H1 [] 0) as [en H2] eqn:E2.
  destruct (new_outs_spec bo bi _ _ _ _ _ _ LI E1 I) as (I1 & _ & R1 & X1 & K1).
  destruct (new_ints_spec bo bi _ _ _ _ _ _ _ E2 I1) as (I2 & R2 & _ & X2 & K2).
  assert (J : inv H2 (cl :: h_c c :: LO) (en :: sread (outs H2) (h_s c) ++ LI)).
  { eapply inv_perm with (LO := cl :: h_c c :: LO) (LI := sread (outs H2) (h_s c) ++ en :: LI); [|reflexivity|symmetry; apply Permutation_middle].
    apply inv_open. eapply inv_perm; [exact I2|apply perm_swap|reflexivity]. }
  destruct (htseytin_loop spare (sread (outs H2) (h_s c)) tv0 cl en H2) as [r H3] eqn:E3.
  destruct (htseytin_loop_spec _ _ _ _ _ _ _ _ _ E3 J) as (A & I3 & X3 & K3). destruct K1 as [K1 K1'], K2 as [K2 K2'].
  change (map (sread (ints H2)) (sread (outs H2) (h_s c))) with (clauses_of H2 (h_s c)) in A. rewrite (K2 (h_s c)), (K1 (h_s c)), R2, (K2 cl), R1 in A by (simpl; auto).
  change (map (sread (ints H)) []) with (@nil clause) in A.
  unfold tseytinNegation. change (sClauses (hread H c)) with (clauses_of H (h_s c)). change (cClauses (hread H c)) with (clauses_of H (h_c c)). destruct K3 as [K3 K3'].
  assert (CC : clauses_of H3 (h_c c) = clauses_of H (h_c c)) by (rewrite K3, K2, K1; simpl; auto).
  assert (RS : rest H H3 LO LI).
  { split; [repeat (eapply extH_trans; [eassumption|]); apply extH_refl|]. split; [intros t Ht; rewrite K3, K2, K1; simpl; auto|intros i Hi; rewrite K3', K2', K1'; simpl; auto]. }
  destruct r as [tv'|[[tv' cl3] en3]]; destruct (tseytin_loop (clauses_of H (h_s c)) tv0 [] []) as [tv1|[[tv1 cls] encl]] eqn:T; cbn [loop_rel] in A; try contradiction.
  - subst tv1. injection E as <- <-. cbn [h_s h_c]. split; [now apply inv_nil|]. split; [|exact RS]. unfold hread. cbn [h_tv h_s h_c]. rewrite CC. reflexivity.
  - destruct A as (<- & A1 & A2 & A3). destruct (append_outs spare H3 (h_c c) (sread (outs H3) cl3)) as [cc H4] eqn:E4.
    apply inv_open in A1. destruct (append_outs_spec spare bo bi _ _ _ _ _ _ _ E4 A1) as (I4 & R4 & X4 & [K4 K4'] & N4).
    change (map (sread (ints H3)) (sread (outs H3) cl3)) with (clauses_of H3 cl3) in R4. rewrite A2, CC in R4.
    assert (EN : length encl = s_len en3) by (rewrite <- A3; apply (in_len H3 _ _ _ A1), in_or_app; simpl; auto).
    rewrite EN. assert (A3' : sread (ints H4) en3 = encl) by (rewrite K4'; auto; apply in_or_app; simpl; auto).
    assert (RS4 : rest H H4 LO LI).
    { eapply rest_trans; [exact RS|split; [exact X4|split; [exact K4|exact K4']]|apply incl_refl|]. intros x Hx. apply in_or_app. simpl. auto. }
    destruct (s_len en3 =? 1)%nat.
    + destruct (new_outs H4 [en3] 0) as [sc H5] eqn:E5. injection E as <- <-.
      destruct (new_outs_spec bo bi _ _ _ _ _ _ LI E5 I4) as (I5 & _ & R5 & X5 & [K5 K5']). cbn [h_s h_c]. split; [exact I5|]. split.
      * unfold hread. cbn [h_tv h_s h_c cClauses]. rewrite R5. cbn [map]. rewrite A3', (K5 cc), R4 by (simpl; auto). reflexivity.
      * eapply rest_trans; [exact RS4|split; [exact X5|split; [exact K5|exact K5']]| |]; intros x Hx; simpl; auto.
    + destruct (hadd_spec _ _ _ _ _ LO LI E I4) as (I5 & R5 & K5). split; [exact I5|]. split; [|eapply rest_trans; [exact RS4|exact K5|apply incl_refl|apply incl_refl]].
      rewrite R5, A3'. unfold addNegationIFFClauses, hread. cbn [h_tv h_s h_c tv sClauses cClauses]. now rewrite R4.
Qed.

Lemma hNegate_spec : forall c o H c' H' LO LI, hNegate spare c o H = (c', H') -> inv H (h_s c :: h_c c :: LO) LI ->
  inv H' (h_s c' :: h_c c' :: LO) LI /\ hread H' c' = Negate (hread H c) o /\ rest H H' LO LI.
Proof.
  intros c o H c' H' LO LI E I. unfold hNegate in E. unfold Negate. cbn [hread tv sClauses cClauses].
  set (topv := match o with Some k => maxInt (h_tv c) k | None => h_tv c end) in *.
  pose proof (out_len _ _ _ (h_s c) I (or_introl eq_refl)) as SL.
  destruct (Nat.eqb_spec (s_len (h_s c)) 0) as [Z|Z].
  - destruct (new_ints H [] 0) as [e H1] eqn:E1. destruct (new_outs H1 [e] 0) as [a H2] eqn:E2. destruct (hAppendSemantics spare c a H2) as [r H3] eqn:E3. injection E as <- <-.
    destruct (new_ints_spec bo bi _ _ _ _ _ _ _ E1 I) as (I1 & R1 & _ & X1 & [K1 K1']).
    destruct (new_outs_spec bo bi _ _ _ _ _ _ LI E2 I1) as (I2 & _ & R2 & X2 & [K2 K2']).
    assert (J : inv H2 (h_s c :: h_c c :: a :: LO) LI).
    { eapply inv_perm; [exact I2| |reflexivity]. rewrite perm_swap. apply perm_skip. apply perm_swap. }
    destruct (hAppendSemantics_spec _ _ _ _ _ _ _ E3 J) as (I3 & R3 & [X3 [K3 K3']] & C3).
    cbn [h_s h_c]. split; [exact I3|].
    assert (QS : clauses_of H (h_s c) = []) by (destruct (clauses_of H (h_s c)); auto; simpl in SL; lia). rewrite QS.
    split; [|split].
    + unfold hread in *. cbn [h_tv h_s h_c] in *. injection R3 as _ R4 R5. rewrite R4, R5, R2. unfold AppendSemantics. cbn [map tv sClauses cClauses]. rewrite R1.
      rewrite (K2 (h_s c)), (K1 (h_s c)), (K2 (h_c c)), (K1 (h_c c)), QS by (simpl; auto). reflexivity.
    + repeat (eapply extH_trans; [eassumption|]). apply extH_refl.
    + split.
      * intros t Ht. rewrite K3, K2, K1; simpl; auto.
      * intros i Hi. rewrite K3', K2', K1'; simpl; auto. apply in_or_app. auto.
  - destruct (clauses_of H (h_s c)) as [|k0 ks] eqn:Q; [simpl in SL; lia|]. rewrite <- Q.
    assert (HE : existsb (fun cl => (s_len cl =? 0)%nat) (sread (outs H) (h_s c)) = hasEmptySemanticClause (mkCNF (h_tv c) (clauses_of H (h_s c)) (clauses_of H (h_c c)))).
    { unfold hasEmptySemanticClause. cbn [sClauses]. unfold clauses_of. clear - I.
      assert (G : forall i, In i (sread (outs H) (h_s c)) -> length (sread (ints H) i) = s_len i) by (intros i Hi; eapply in_out_len; [exact I|now left|exact Hi]).
      revert G. generalize (sread (outs H) (h_s c)). induction l as [|x l IH]; intros G; auto. cbn [map existsb]. rewrite IH by (intros; apply G; simpl; auto). f_equal.
      specialize (G x (or_introl eq_refl)). destruct (sread (ints H) x); simpl in G; rewrite <- G; reflexivity. }
    fold (hread H c) in HE. rewrite HE in E. fold (hread H c). destruct (hasEmptySemanticClause (hread H c)).
    + injection E as <- <-. cbn [h_s h_c]. split; [apply inv_nil; now apply inv_forget in I|]. split; [reflexivity|apply rest_refl].
    + destruct (htseytinNegation_spec _ _ _ _ _ _ _ E I) as (I' & R' & K'). split; [exact I'|]. split; [exact R'|exact K'].
Qed.
End Ops.
