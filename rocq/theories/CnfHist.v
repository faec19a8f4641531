(* Histories of CNF operations: every CNF a program can build. *)
From Verif Require Import GoBase Cnf CnfSem.
Local Open Scope Z_scope.

(* ---- specification ---- *)

(* [built ok c]: c is obtained by some sequence of package operations whose
   clause arguments only have literals satisfying [ok].  The optional argument
   of Negate is arbitrary. *)
Inductive built (ok : Z -> Prop) : CNF -> Prop :=
| b_true : built ok TrueCNF
| b_false : built ok FalseCNF
| b_from cls : Forall (Forall ok) cls -> built ok (FromClauses cls)
| b_sem c cls : built ok c -> Forall (Forall ok) cls -> built ok (AppendSemantics c cls)
| b_con c cls : built ok c -> Forall (Forall ok) cls -> built ok (AppendConsistency c cls)
| b_conj c1 c2 : built ok c1 -> built ok c2 -> built ok (Conjunction c1 c2)
| b_neg c k : built ok c -> built ok (Negate c k).

Definition nonzero (l : Z) : Prop := l <> 0.
Definition any (l : Z) : Prop := True.

(* Every literal of every clause is at most k in absolute value. *)
Definition bounded_by (k : Z) (c : CNF) : Prop :=
  forall cl l, In cl (sClauses c) \/ In cl (cClauses c) -> In l cl -> Z.abs l <= k.

(* ---- proofs ---- *)

Lemma built_wf : forall c, built nonzero c -> cnf_wf c.
Proof.
  induction 1.
  - apply wf_True.
  - apply wf_False.
  - apply wf_FromClauses; auto.
  - apply wf_AppendSemantics; auto.
  - apply wf_AppendConsistency; auto.
  - apply wf_Conjunction; auto.
  - apply (Negate_spec c k); auto.
Qed.

(* Bounds without assuming anything about the literals. *)
Definition bnd (k : Z) (cls : list clause) : Prop := Forall (Forall (fun l => Z.abs l <= k)) cls.

Lemma bnd_weaken : forall k k' cls, k <= k' -> bnd k cls -> bnd k' cls.
Proof.
  intros k k' cls H Hb. eapply Forall_impl; [|exact Hb]. intros cl Hc.
  eapply Forall_impl; [|exact Hc]. simpl; intros; lia.
Qed.
Lemma bnd_app : forall k a b, bnd k a -> bnd k b -> bnd k (a ++ b).
Proof. intros; apply Forall_app; auto. Qed.
Lemma bnd_maxVar : forall cls, bnd (maxVar cls) cls.
Proof. intros. apply (maxVar_outer cls 0). Qed.

Lemma loop_bnd : forall scls k cls enc,
  0 <= k -> bnd k scls -> bnd k cls -> Forall (fun l => Z.abs l <= k) enc ->
  match tseytin_loop scls k cls enc with
  | inl k' => k <= k'
  | inr (k', cls', enc') =>
      k <= k' /\ bnd k' cls' /\ Forall (fun l => Z.abs l <= k') enc'
  end.
Proof.
  induction scls as [|cl scls IH]; intros k cls enc Hk Hs Hc He; simpl.
  - repeat split; auto; lia.
  - inversion Hs as [|? ? Hcl Hr]; subst.
    destruct cl as [|l1 [|l2 cl]].
    + lia.
    + specialize (IH k cls (enc ++ [- l1]) Hk Hr Hc).
      apply IH. apply Forall_app; split; auto. inversion Hcl; subst.
      repeat constructor; lia.
    + set (c0 := l1 :: l2 :: cl) in *.
      assert (G : match tseytin_loop scls (k + 1)
                  ((cls ++ map (fun lit => [- lit; - (k + 1)]) c0) ++ [c0 ++ [k + 1]])
                  (enc ++ [k + 1]) with
                | inl k' => k + 1 <= k'
                | inr (k', cls', enc') =>
                    k + 1 <= k' /\ bnd k' cls' /\ Forall (fun l => Z.abs l <= k') enc'
                end).
      { apply IH; try lia.
        - eapply bnd_weaken; [|exact Hr]; lia.
        - apply bnd_app; [apply bnd_app|].
          + eapply bnd_weaken; [|exact Hc]; lia.
          + unfold bnd. rewrite Forall_map. eapply Forall_impl; [|exact Hcl].
            simpl; intros; repeat constructor; lia.
          + constructor; [|constructor]. apply Forall_app; split.
            * eapply Forall_impl; [|exact Hcl]. simpl; intros; lia.
            * repeat constructor; lia.
        - apply Forall_app; split.
          + eapply Forall_impl; [|exact He]. simpl; intros; lia.
          + repeat constructor; lia. }
      unfold c0 in G. simpl in G. simpl.
      destruct (tseytin_loop _ _ _ _) as [k'|[[k' cls'] enc']].
      * lia.
      * destruct G as (G1 & G2 & G3). repeat split; auto; lia.
Qed.

Definition top_ok (c : CNF) : Prop := 0 <= tv c /\ bnd (tv c) (sClauses c) /\ bnd (tv c) (cClauses c).

Lemma Negate_top : forall c opt, top_ok c ->
  top_ok (Negate c opt) /\ neg_topv c opt <= tv (Negate c opt).
Proof.
  intros c opt (W1 & W2 & W3).
  assert (Hk : tv c <= neg_topv c opt) by (unfold neg_topv; destruct opt; lia).
  assert (E : match opt with Some k => maxInt (tv c) k | None => tv c end = neg_topv c opt).
  { unfold neg_topv; destruct opt; auto. apply maxInt_spec. }
  unfold Negate. rewrite E. set (k := neg_topv c opt) in *. clearbody k. clear E.
  assert (W2k : bnd k (sClauses c)) by (eapply bnd_weaken; eauto).
  assert (W3k : bnd k (cClauses c)) by (eapply bnd_weaken; eauto).
  destruct (sClauses c) as [|cl0 scls0] eqn:ES.
  - unfold top_ok, AppendSemantics; simpl. rewrite ES. simpl.
    split; [|lia]. split; [lia|]. split; [repeat constructor|auto].
  - rewrite <- ES in *. clear cl0 scls0 ES.
    destruct (hasEmptySemanticClause c).
    + unfold top_ok; simpl. split; [|lia]. split; [lia|]. split; [constructor|auto].
    + unfold tseytinNegation. cbn [sClauses cClauses].
      pose proof (loop_bnd (sClauses c) k [] []) as L.
      destruct (tseytin_loop _ _ _ _) as [k'|[[k' new] ne]].
      * assert (k <= k') by (apply L; auto; [lia|constructor]).
        unfold top_ok; simpl. split; [|lia]. split; [lia|]. split; [constructor|].
        eapply bnd_weaken; eauto.
      * destruct L as (L1 & L2 & L3); [lia|auto|constructor|constructor|].
        assert (W3' : bnd k' (cClauses c)) by (eapply bnd_weaken; eauto).
        destruct (length ne =? 1)%nat.
        -- unfold top_ok; simpl. split; [|lia]. split; [lia|].
           split; [constructor; [auto|constructor]|]. apply bnd_app; auto.
        -- unfold addNegationIFFClauses, top_ok; simpl. split; [|lia]. split; [lia|]. split.
           ++ repeat constructor. lia.
           ++ apply bnd_app; [apply bnd_app; [apply bnd_app|]|].
              ** eapply bnd_weaken; [|exact W3']; lia.
              ** eapply bnd_weaken; [|exact L2]; lia.
              ** unfold bnd. rewrite Forall_map. eapply Forall_impl; [|exact L3].
                 simpl; intros; repeat constructor; lia.
              ** constructor; [|constructor]. apply Forall_app; split.
                 --- eapply Forall_impl; [|exact L3]. simpl; intros; lia.
                 --- repeat constructor; lia.
Qed.

Lemma built_top : forall c, built any c -> top_ok c.
Proof.
  induction 1 as [| |cls Hc|c cls Hb IH Hc|c cls Hb IH Hc|c1 c2 H1 IH1 H2 IH2|c k Hb IH].
  - repeat split; simpl; try lia; constructor.
  - repeat split; simpl; try lia; repeat constructor.
  - unfold top_ok; simpl. split; [apply maxVar_nonneg|]. split; [apply bnd_maxVar|constructor].
  - destruct IH as (I1 & I2 & I3). unfold top_ok; simpl. rewrite maxInt_spec.
    pose proof (maxVar_nonneg cls). split; [lia|]. split.
    + apply bnd_app; (eapply bnd_weaken; [|first [eassumption|apply bnd_maxVar]]); lia.
    + eapply bnd_weaken; [|exact I3]; lia.
  - destruct IH as (I1 & I2 & I3). unfold top_ok; simpl. rewrite maxInt_spec.
    pose proof (maxVar_nonneg cls). split; [lia|]. split.
    + eapply bnd_weaken; [|exact I2]; lia.
    + apply bnd_app; (eapply bnd_weaken; [|first [eassumption|apply bnd_maxVar]]); lia.
  - destruct IH1 as (I1 & I2 & I3). destruct IH2 as (J1 & J2 & J3).
    unfold top_ok, Conjunction; simpl. rewrite !maxInt_spec.
    pose proof (maxVar_nonneg (sClauses c2)). pose proof (maxVar_nonneg (cClauses c2)).
    split; [lia|]. split; apply bnd_app.
    + eapply bnd_weaken; [|exact I2]; lia.
    + eapply bnd_weaken; [|apply bnd_maxVar]; lia.
    + eapply bnd_weaken; [|exact I3]; lia.
    + eapply bnd_weaken; [|apply bnd_maxVar]; lia.
  - apply Negate_top; auto.
Qed.

Lemma bnd_In : forall k cls cl l, bnd k cls -> In cl cls -> In l cl -> Z.abs l <= k.
Proof.
  intros k cls cl l H Hc Hl. unfold bnd in H. rewrite Forall_forall in H.
  specialize (H _ Hc). rewrite Forall_forall in H. auto.
Qed.

Lemma built_bounded : forall c, built any c -> 0 <= TopV c /\ bounded_by (TopV c) c.
Proof.
  intros c H. destruct (built_top c H) as (H1 & H2 & H3).
  split; auto. intros cl l [Hc|Hc] Hl; [eapply bnd_In; [exact H2|..]|eapply bnd_In; [exact H3|..]]; eauto.
Qed.

Lemma built_legal : forall c, built nonzero c ->
  legal_clauses (sClauses c) /\ legal_clauses (cClauses c).
Proof.
  intros c H. destruct (built_wf c H) as (_ & H2 & H3).
  split; eapply clauses_bound_legal; eauto.
Qed.

(* TopV never decreases from an operand to the result. *)
Lemma top_monotone : forall c c2 cls k, built any c -> built any c2 ->
  TopV c <= TopV (AppendSemantics c cls) /\
  TopV c <= TopV (AppendConsistency c cls) /\
  TopV c <= TopV (Conjunction c c2) /\
  TopV c <= TopV (Negate c (Some k)) /\ k <= TopV (Negate c (Some k)) /\
  TopV c <= TopV (Negate c None).
Proof.
  intros c c2 cls k H H2. unfold TopV.
  pose proof (Negate_top c (Some k) (built_top c H)) as [_ N1].
  pose proof (Negate_top c None (built_top c H)) as [_ N2].
  simpl in N1, N2. simpl. rewrite !maxInt_spec. lia.
Qed.
