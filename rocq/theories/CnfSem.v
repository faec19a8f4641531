(* Meaning of CNF formulas under valuations, and the proofs about cnf.go. *)
From Verif Require Import GoBase Cnf.
Local Open Scope Z_scope.

(* ---- specification ---- *)

(* A valuation gives a truth value to every CNF variable (1, 2, ..). *)
Definition valuation := Z -> bool.

Definition lit_true (r : valuation) (l : Z) : bool :=
  if 0 <? l then r l else negb (r (- l)).
Definition clause_true (r : valuation) (cl : clause) : bool :=
  existsb (lit_true r) cl.
Definition clauses_true (r : valuation) (cls : list clause) : bool :=
  forallb (clause_true r) cls.

(* Semantic part, consistency part, the whole formula (what a solver sees). *)
Definition Sem (r : valuation) (c : CNF) : bool := clauses_true r (sClauses c).
Definition Con (r : valuation) (c : CNF) : bool := clauses_true r (cClauses c).
Definition Models (r : valuation) (c : CNF) : bool := Sem r c && Con r c.

Definition agree (k : Z) (r r' : valuation) : Prop :=
  forall x, 1 <= x <= k -> r x = r' x.

(* Every literal is a legal DIMACS literal with variable at most k. *)
Definition clause_bound (k : Z) (cl : clause) : Prop :=
  Forall (fun l => l <> 0 /\ Z.abs l <= k) cl.
Definition clauses_bound (k : Z) (cls : list clause) : Prop :=
  Forall (clause_bound k) cls.
Definition legal_clauses (cls : list clause) : Prop :=
  Forall (Forall (fun l => l <> 0)) cls.

Definition cnf_wf (c : CNF) : Prop :=
  0 <= tv c /\ clauses_bound (tv c) (sClauses c) /\ clauses_bound (tv c) (cClauses c).

(* ---- basic facts ---- *)

Lemma lit_true_opp : forall r l, l <> 0 -> lit_true r (- l) = negb (lit_true r l).
Proof.
  intros r l H. unfold lit_true.
  destruct (Z.ltb_spec 0 l); destruct (Z.ltb_spec 0 (- l)); try lia.
  - now rewrite Z.opp_involutive.
  - now rewrite negb_involutive.
Qed.

Lemma lit_true_pos : forall r l, 0 < l -> lit_true r l = r l.
Proof. intros r l H. unfold lit_true. now rewrite (proj2 (Z.ltb_lt _ _) H). Qed.

Lemma lit_true_neg : forall r l, 0 < l -> lit_true r (- l) = negb (r l).
Proof. intros r l H. rewrite lit_true_opp by lia. now rewrite lit_true_pos. Qed.

Lemma agree_refl : forall k r, agree k r r.
Proof. intros k r x _; reflexivity. Qed.
Lemma agree_sym : forall k r r', agree k r r' -> agree k r' r.
Proof. intros k r r' H x Hx. symmetry; auto. Qed.
Lemma agree_trans : forall k r1 r2 r3, agree k r1 r2 -> agree k r2 r3 -> agree k r1 r3.
Proof. intros k r1 r2 r3 H H' x Hx. rewrite H by auto. auto. Qed.
Lemma agree_weaken : forall k k' r r', k' <= k -> agree k r r' -> agree k' r r'.
Proof. intros k k' r r' H H' x Hx. apply H'. lia. Qed.

Lemma lit_true_agree : forall k r r' l,
  agree k r r' -> l <> 0 -> Z.abs l <= k -> lit_true r l = lit_true r' l.
Proof.
  intros k r r' l H H0 Hk. unfold lit_true.
  destruct (Z.ltb_spec 0 l); rewrite H; auto; lia.
Qed.

Lemma clause_true_agree : forall k r r' cl,
  agree k r r' -> clause_bound k cl -> clause_true r cl = clause_true r' cl.
Proof.
  intros k r r' cl Ha Hb. unfold clause_true.
  induction Hb as [|l cl [H0 Hk] _ IH]; simpl; auto.
  rewrite IH. now rewrite (lit_true_agree k r r' l).
Qed.

Lemma clauses_true_agree : forall k r r' cls,
  agree k r r' -> clauses_bound k cls -> clauses_true r cls = clauses_true r' cls.
Proof.
  intros k r r' cls Ha Hb. unfold clauses_true.
  induction Hb as [|cl cls H _ IH]; simpl; auto.
  rewrite IH. now rewrite (clause_true_agree k r r' cl).
Qed.

Lemma clauses_true_app : forall r a b,
  clauses_true r (a ++ b) = clauses_true r a && clauses_true r b.
Proof. intros; unfold clauses_true; apply forallb_app. Qed.

Lemma clause_true_app : forall r a b,
  clause_true r (a ++ b) = clause_true r a || clause_true r b.
Proof. intros; unfold clause_true; apply existsb_app. Qed.

Lemma clause_bound_weaken : forall k k' cl,
  k <= k' -> clause_bound k cl -> clause_bound k' cl.
Proof. intros k k' cl H Hb. eapply Forall_impl; [|exact Hb]. simpl; intros; lia. Qed.
Lemma clauses_bound_weaken : forall k k' cls,
  k <= k' -> clauses_bound k cls -> clauses_bound k' cls.
Proof.
  intros k k' cls H Hb. eapply Forall_impl; [|exact Hb].
  intros; eapply clause_bound_weaken; eauto.
Qed.
Lemma clauses_bound_app : forall k a b,
  clauses_bound k a -> clauses_bound k b -> clauses_bound k (a ++ b).
Proof. intros; apply Forall_app; auto. Qed.

Lemma maxInt_spec : forall a b, maxInt a b = Z.max a b.
Proof. intros. unfold maxInt. destruct (Z.ltb_spec b a); lia. Qed.
Lemma absInt_spec : forall a, absInt a = Z.abs a.
Proof. intros. unfold absInt. destruct (Z.ltb_spec 0 a); lia. Qed.

(* ---- maxVar ---- *)

Lemma maxVar_inner : forall cl k,
  let m := fold_left (fun topv v => if topv <? absInt v then absInt v else topv) cl k in
  k <= m /\ Forall (fun l => Z.abs l <= m) cl /\
  (m = k \/ exists l, In l cl /\ m = Z.abs l).
Proof.
  induction cl as [|l cl IH]; intros k; simpl.
  - split; [lia|]. split; auto.
  - rewrite absInt_spec.
    destruct (Z.ltb_spec k (Z.abs l)).
    + destruct (IH (Z.abs l)) as (H1 & H2 & H3). split; [lia|]. split.
      * constructor; auto.
      * right. destruct H3 as [->|(x & Hx & ->)]; eauto.
    + destruct (IH k) as (H1 & H2 & H3). split; [lia|]. split.
      * constructor; auto; lia.
      * destruct H3 as [->|(x & Hx & ->)]; eauto.
Qed.

Lemma maxVar_outer : forall cls k,
  let m := fold_left (fun topv cl => fold_left
    (fun topv v => if topv <? absInt v then absInt v else topv) cl topv) cls k in
  k <= m /\ Forall (Forall (fun l => Z.abs l <= m)) cls /\
  (m = k \/ exists cl l, In cl cls /\ In l cl /\ m = Z.abs l).
Proof.
  induction cls as [|cl cls IH]; intros k; simpl.
  - split; [lia|]. split; auto.
  - destruct (maxVar_inner cl k) as (H1 & H2 & H3).
    set (m0 := fold_left _ cl k) in *.
    destruct (IH m0) as (H4 & H5 & H6).
    split; [lia|]. split.
    + constructor; auto. eapply Forall_impl; [|exact H2]. simpl; intros; lia.
    + destruct H6 as [->|(cl' & l & ? & ? & ->)].
      * destruct H3 as [->|(l & Hl & ->)]; [left; auto|right; exists cl, l; auto].
      * right; exists cl', l; auto.
Qed.

Lemma maxVar_nonneg : forall cls, 0 <= maxVar cls.
Proof. intros. apply (maxVar_outer cls 0). Qed.

Lemma maxVar_bound : forall cls, legal_clauses cls -> clauses_bound (maxVar cls) cls.
Proof.
  intros cls H. destruct (maxVar_outer cls 0) as (_ & H2 & _).
  fold (maxVar cls) in H2. unfold legal_clauses, clauses_bound, clause_bound in *.
  rewrite Forall_forall in *. intros cl Hcl. specialize (H _ Hcl). specialize (H2 _ Hcl).
  rewrite Forall_forall in *. intros l Hl. auto.
Qed.

Lemma maxVar_least : forall cls k, 0 <= k -> clauses_bound k cls -> maxVar cls <= k.
Proof.
  intros cls k Hk H. destruct (maxVar_outer cls 0) as (_ & _ & [H3|(cl & l & Hc & Hl & H3)]);
    fold (maxVar cls) in H3; [lia|].
  unfold clauses_bound, clause_bound in H. rewrite Forall_forall in H.
  specialize (H _ Hc). rewrite Forall_forall in H. specialize (H _ Hl). lia.
Qed.

Lemma clauses_bound_legal : forall k cls, clauses_bound k cls -> legal_clauses cls.
Proof.
  intros k cls H. eapply Forall_impl; [|exact H]. intros cl Hc.
  eapply Forall_impl; [|exact Hc]. simpl; tauto.
Qed.

(* ---- well-formedness is kept by every operation ---- *)

Lemma wf_True : cnf_wf TrueCNF.
Proof. repeat split; simpl; try lia; constructor. Qed.
Lemma wf_False : cnf_wf FalseCNF.
Proof. repeat split; simpl; try lia; repeat constructor. Qed.

Lemma wf_FromClauses : forall cls, legal_clauses cls -> cnf_wf (FromClauses cls).
Proof.
  intros cls H. repeat split; simpl.
  - apply maxVar_nonneg.
  - apply maxVar_bound; auto.
  - constructor.
Qed.

Lemma wf_AppendSemantics : forall c cls,
  cnf_wf c -> legal_clauses cls -> cnf_wf (AppendSemantics c cls).
Proof.
  intros c cls (H1 & H2 & H3) H. unfold cnf_wf, AppendSemantics; simpl. rewrite maxInt_spec.
  pose proof (maxVar_nonneg cls). split; [lia|]. split.
  - apply clauses_bound_app.
    + eapply clauses_bound_weaken; [|exact H2]; lia.
    + eapply clauses_bound_weaken; [|apply maxVar_bound; auto]; lia.
  - eapply clauses_bound_weaken; [|exact H3]; lia.
Qed.

Lemma wf_AppendConsistency : forall c cls,
  cnf_wf c -> legal_clauses cls -> cnf_wf (AppendConsistency c cls).
Proof.
  intros c cls (H1 & H2 & H3) H. unfold cnf_wf, AppendConsistency; simpl. rewrite maxInt_spec.
  pose proof (maxVar_nonneg cls). split; [lia|]. split.
  - eapply clauses_bound_weaken; [|exact H2]; lia.
  - apply clauses_bound_app.
    + eapply clauses_bound_weaken; [|exact H3]; lia.
    + eapply clauses_bound_weaken; [|apply maxVar_bound; auto]; lia.
Qed.

Lemma wf_Conjunction : forall c oc, cnf_wf c -> cnf_wf oc -> cnf_wf (Conjunction c oc).
Proof.
  intros c oc H (H1 & H2 & H3). unfold Conjunction.
  apply wf_AppendConsistency; [|eapply clauses_bound_legal; eauto].
  pose proof (wf_AppendSemantics c (sClauses oc) H (clauses_bound_legal _ _ H2)) as (W1 & W2 & W3).
  repeat split; auto.
Qed.

Lemma Conjunction_tv : forall c oc, cnf_wf c -> cnf_wf oc ->
  tv c <= tv (Conjunction c oc) /\ tv (Conjunction c oc) <= Z.max (tv c) (tv oc).
Proof.
  intros c oc (A1 & A2 & A3) (B1 & B2 & B3). unfold Conjunction; simpl. rewrite !maxInt_spec.
  pose proof (maxVar_least (sClauses oc) _ B1 B2).
  pose proof (maxVar_least (cClauses oc) _ B1 B3). lia.
Qed.

Lemma Sem_Conjunction : forall r c oc, Sem r (Conjunction c oc) = Sem r c && Sem r oc.
Proof. intros. unfold Sem, Conjunction; simpl. apply clauses_true_app. Qed.
Lemma Con_Conjunction : forall r c oc, Con r (Conjunction c oc) = Con r c && Con r oc.
Proof. intros. unfold Con, Conjunction; simpl. apply clauses_true_app. Qed.

(* ---- the Tseytin loop ---- *)

Definition upd (r : valuation) (k : Z) (b : bool) : valuation :=
  fun x => if x =? k then b else r x.

Lemma upd_same : forall r k b, upd r k b k = b.
Proof. intros; unfold upd; now rewrite Z.eqb_refl. Qed.
Lemma upd_agree : forall r k b n, n < k -> agree n r (upd r k b).
Proof. intros r k b n H x Hx. unfold upd. destruct (Z.eqb_spec x k); auto; lia. Qed.

(* auxv <-> the clause is false *)
Lemma aux_clauses_iff : forall r cl aux,
  0 < aux -> Forall (fun l => l <> 0) cl ->
  clauses_true r (map (fun lit => [- lit; - aux]) cl ++ [cl ++ [aux]])
  = eqb (r aux) (negb (clause_true r cl)).
Proof.
  intros r cl aux Ha Hl.
  rewrite clauses_true_app. simpl. rewrite andb_true_r, clause_true_app. simpl.
  rewrite lit_true_pos by auto. rewrite orb_false_r.
  assert (E : clauses_true r (map (fun lit => [- lit; - aux]) cl)
              = negb (r aux) || negb (clause_true r cl)).
  { induction Hl as [|l cl H0 _ IH]; simpl.
    - now rewrite orb_true_r.
    - rewrite IH. rewrite lit_true_opp by auto. rewrite lit_true_neg by auto.
      unfold clause_true. simpl. destruct (lit_true r l), (r aux), (existsb _ cl); reflexivity. }
  rewrite E. destruct (r aux), (clause_true r cl); reflexivity.
Qed.

Definition nonempty (cl : clause) : bool := match cl with [] => false | _ => true end.

Lemma tseytin_loop_spec : forall scls k cls enc,
  0 <= k -> clauses_bound k scls -> forallb nonempty scls = true ->
  exists k' new newenc,
    tseytin_loop scls k cls enc = inr (k', cls ++ new, enc ++ newenc) /\
    k <= k' /\
    length newenc = length scls /\
    clauses_bound k' new /\
    clause_bound k' newenc /\
    (forall r, clauses_true r new = true ->
       clause_true r newenc = negb (clauses_true r scls)) /\
    (forall r, exists r', agree k r r' /\ clauses_true r' new = true) /\
    (forall r r', agree k r r' -> clauses_true r new = true ->
       clauses_true r' new = true -> agree k' r r').
Proof.
  induction scls as [|cl scls IH]; intros k cls enc Hk Hb Hne.
  - exists k, [], []. simpl. rewrite !app_nil_r.
    split; [reflexivity|]. split; [lia|]. split; [reflexivity|].
    split; [constructor|]. split; [constructor|].
    split; [reflexivity|]. split.
    + intros r; exists r; split; [apply agree_refl|reflexivity].
    + intros; auto.
  - inversion Hb as [|? ? Hcl Hrest]; subst. simpl in Hne.
    apply andb_true_iff in Hne as [Hn1 Hn2].
    destruct cl as [|l1 [|l2 cl']]; [discriminate| |].
    + (* unit clause *)
      destruct (IH k cls (enc ++ [- l1]) Hk Hrest Hn2)
        as (k' & new & ne & E & L & Len & B1 & B2 & S1 & S2 & S3).
      exists k', new, (- l1 :: ne). simpl. rewrite E.
      split; [now rewrite <- app_assoc|]. split; [lia|]. split; [now rewrite Len|].
      split; [auto|]. split.
      { inversion Hcl as [|? ? [? ?] _]; subst. constructor; [lia|auto]. }
      split; [|split; [exact S2|exact S3]].
      intros r Hr. inversion Hcl as [|? ? [? ?] _]; subst.
      unfold clause_true in *. simpl. rewrite lit_true_opp by auto.
      rewrite (S1 r Hr). rewrite orb_false_r.
      destruct (lit_true r l1); reflexivity.
    + (* longer clause *)
      set (cl := l1 :: l2 :: cl') in *.
      assert (Hnz : Forall (fun l => l <> 0) cl).
      { eapply Forall_impl; [|exact Hcl]. simpl; tauto. }
      set (A := map (fun lit => [- lit; - (k + 1)]) cl ++ [cl ++ [k + 1]]).
      destruct (IH (k + 1) (cls ++ A) (enc ++ [k + 1]))
        as (k' & new & ne & E & L & Len & B1 & B2 & S1 & S2 & S3); auto; try lia.
      { eapply clauses_bound_weaken; [|exact Hrest]; lia. }
      assert (BA : clauses_bound (k + 1) A).
      { unfold A. apply clauses_bound_app.
        - unfold clauses_bound. rewrite Forall_map. eapply Forall_impl; [|exact Hcl].
          simpl. intros l [H0 H1]. repeat constructor; lia.
        - constructor; [|constructor]. apply Forall_app. split.
          + eapply clause_bound_weaken; [|exact Hcl]; lia.
          + repeat constructor; lia. }
      exists k', (A ++ new), ((k + 1) :: ne).
      split.
      { subst cl. cbn [tseytin_loop].
        replace ((cls ++ map (fun lit => [- lit; - (k + 1)]) (l1 :: l2 :: cl'))
                 ++ [(l1 :: l2 :: cl') ++ [k + 1]])
          with (cls ++ A) by (unfold A; now rewrite app_assoc).
        rewrite E. now rewrite <- !app_assoc. }
      split; [lia|]. split; [simpl; now rewrite Len|].
      split. { apply clauses_bound_app; auto. eapply clauses_bound_weaken; [|exact BA]; lia. }
      split. { constructor; auto. lia. }
      assert (IFF : forall r, clauses_true r A = eqb (r (k + 1)) (negb (clause_true r cl))).
      { intros r. unfold A. apply aux_clauses_iff; auto; lia. }
      split; [|split].
      * intros r Hr. rewrite clauses_true_app in Hr. apply andb_true_iff in Hr as [HA Hr].
        rewrite IFF in HA. apply eqb_prop in HA.
        change (clause_true r ((k + 1) :: ne)) with (lit_true r (k + 1) || clause_true r ne).
        rewrite lit_true_pos by lia. rewrite (S1 r Hr), HA.
        change (clauses_true r (cl :: scls)) with (clause_true r cl && clauses_true r scls).
        destruct (clause_true r cl), (clauses_true r scls); reflexivity.
      * intros r. set (r1 := upd r (k + 1) (negb (clause_true r cl))).
        destruct (S2 r1) as (r2 & Ag & Tr).
        assert (A1 : agree k r r1) by (apply upd_agree; lia).
        assert (A2 : agree k r r2).
        { eapply agree_trans; [exact A1|]. eapply agree_weaken; [|exact Ag]; lia. }
        exists r2. split; [exact A2|].
        rewrite clauses_true_app, Tr, andb_true_r, IFF.
        rewrite <- (Ag (k + 1)) by lia. unfold r1 at 1. rewrite upd_same.
        rewrite (clause_true_agree k r r2) by auto. apply eqb_reflx.
      * intros r r' Hag Hr Hr'.
        rewrite clauses_true_app in Hr, Hr'.
        apply andb_true_iff in Hr as [HA Hr]. apply andb_true_iff in Hr' as [HA' Hr'].
        rewrite IFF in HA, HA'. apply eqb_prop in HA. apply eqb_prop in HA'.
        apply S3; auto. intros x Hx.
        destruct (Z.eq_dec x (k + 1)) as [->|].
        -- rewrite HA, HA'. f_equal. apply (clause_true_agree k); auto.
        -- apply Hag; lia.
Qed.

(* l <-> one of enc *)
Lemma iff_clauses : forall r enc aux,
  0 < aux -> Forall (fun l => l <> 0) enc ->
  clauses_true r (map (fun lit => [- lit; aux]) enc ++ [enc ++ [- aux]])
  = eqb (r aux) (clause_true r enc).
Proof.
  intros r enc aux Ha Hl. rewrite clauses_true_app. simpl.
  rewrite andb_true_r, clause_true_app. simpl. rewrite orb_false_r, lit_true_neg by auto.
  assert (E : clauses_true r (map (fun lit => [- lit; aux]) enc)
              = r aux || negb (clause_true r enc)).
  { induction Hl as [|l enc H0 _ IH]; simpl.
    - now rewrite orb_true_r.
    - rewrite IH. rewrite lit_true_opp by auto. rewrite (lit_true_pos r aux) by auto.
      unfold clause_true. simpl. destruct (lit_true r l), (r aux), (existsb _ enc); reflexivity. }
  rewrite E. destruct (r aux), (clause_true r enc); reflexivity.
Qed.

Lemma hasEmpty_spec : forall c, hasEmptySemanticClause c = negb (forallb nonempty (sClauses c)).
Proof.
  intros c. unfold hasEmptySemanticClause.
  induction (sClauses c) as [|[|x y] l IH]; simpl; auto.
Qed.

Definition neg_topv (c : CNF) (opt : option Z) : Z :=
  match opt with Some k => Z.max (tv c) k | None => tv c end.

(* Everything about Negate in one statement. *)
Lemma Negate_spec : forall c opt,
  cnf_wf c ->
  let g := Negate c opt in
  let k := neg_topv c opt in
  cnf_wf g /\ k <= tv g /\
  (forall r, Con r g = true -> Con r c = true /\ Sem r g = negb (Sem r c)) /\
  (forall r, Con r c = true -> exists r', agree k r r' /\ Con r' g = true) /\
  (forall r r', agree k r r' -> Con r g = true -> Con r' g = true -> agree (tv g) r r').
Proof.
  intros c opt (W1 & W2 & W3). cbv zeta.
  assert (Hk : tv c <= neg_topv c opt) by (unfold neg_topv; destruct opt; lia).
  assert (E : match opt with Some k => maxInt (tv c) k | None => tv c end = neg_topv c opt).
  { unfold neg_topv; destruct opt; auto. apply maxInt_spec. }
  unfold Negate. rewrite E. set (k := neg_topv c opt) in *. clearbody k. clear E.
  assert (W2k : clauses_bound k (sClauses c)) by (eapply clauses_bound_weaken; eauto).
  assert (W3k : clauses_bound k (cClauses c)) by (eapply clauses_bound_weaken; eauto).
  destruct (sClauses c) as [|cl0 scls0] eqn:ES.
  - (* no semantic clause *)
    unfold cnf_wf, AppendSemantics, Con, Sem; simpl. rewrite ES. simpl.
    split; [repeat split; auto; [lia|repeat constructor]|]. split; [lia|].
    split; [intros r Hr; auto|]. split.
    + intros r Hr; exists r; split; auto using agree_refl.
    + intros; auto.
  - rewrite <- ES in *. clear cl0 scls0 ES.
    destruct (hasEmptySemanticClause c) eqn:HE; rewrite hasEmpty_spec in HE.
    + (* an empty semantic clause *)
      apply negb_true_iff in HE.
      unfold cnf_wf, Con, Sem; simpl.
      split; [repeat split; auto; [lia|constructor]|]. split; [lia|].
      split; [|split].
      * intros r Hr. split; auto.
        assert (HS : clauses_true r (sClauses c) = false).
        { clear - HE. induction (sClauses c) as [|[|x y] l IH]; simpl in *; auto; try discriminate.
          rewrite IH by auto. apply andb_false_r. }
        now rewrite HS.
      * intros r Hr; exists r; split; auto using agree_refl.
      * intros; auto.
    + apply negb_false_iff in HE.
      destruct (tseytin_loop_spec (sClauses c) k [] []) as
        (k' & new & ne & EQ & L & Len & B1 & B2 & S1 & S2 & S3); auto; try lia.
      unfold tseytinNegation. cbn [sClauses cClauses]. rewrite EQ. cbn [app].
      destruct (Nat.eqb_spec (length ne) 1) as [H1|H1].
      * (* a single clause *)
        unfold cnf_wf, Con, Sem; cbn [sClauses cClauses tv].
        split.
        { repeat split; [lia| |].
          - constructor; [exact B2|constructor].
          - apply clauses_bound_app; auto. eapply clauses_bound_weaken; [|exact W3k]; lia. }
        split; [lia|]. split; [|split].
        -- intros r Hr. rewrite clauses_true_app in Hr. apply andb_true_iff in Hr as [Hr1 Hr2].
           split; auto. unfold clauses_true at 1; cbn [forallb].
           rewrite andb_true_r. auto.
        -- intros r Hr. destruct (S2 r) as (r' & Ag & Tr). exists r'. split; auto.
           rewrite clauses_true_app, Tr, andb_true_r.
           rewrite <- (clauses_true_agree k r r'); auto.
        -- intros r r' Ag Hr Hr'. rewrite clauses_true_app in Hr, Hr'.
           apply andb_true_iff in Hr as [_ Hr]. apply andb_true_iff in Hr' as [_ Hr'].
           apply S3; auto.
      * (* several clauses *)
        unfold addNegationIFFClauses, cnf_wf, Con, Sem; cbn [sClauses cClauses tv].
        assert (Hnz : Forall (fun l => l <> 0) ne).
        { eapply Forall_impl; [|exact B2]. simpl; tauto. }
        set (I := map (fun lit => [- lit; k' + 1]) ne ++ [ne ++ [- (k' + 1)]]).
        assert (IFF : forall r, clauses_true r I = eqb (r (k' + 1)) (clause_true r ne)).
        { intros r; unfold I; apply iff_clauses; auto; lia. }
        assert (EI : ((cClauses c ++ new) ++ map (fun lit => [- lit; k' + 1]) ne)
                     ++ [ne ++ [- (k' + 1)]] = cClauses c ++ new ++ I).
        { unfold I. now rewrite <- !app_assoc. }
        rewrite EI.
        assert (BI : clauses_bound (k' + 1) I).
        { unfold I. apply clauses_bound_app.
          - unfold clauses_bound. rewrite Forall_map. eapply Forall_impl; [|exact B2].
            simpl. intros l [H0 H2]. repeat constructor; lia.
          - constructor; [|constructor]. apply Forall_app. split.
            + eapply clause_bound_weaken; [|exact B2]; lia.
            + repeat constructor; lia. }
        split.
        { repeat split; [lia| |].
          - repeat constructor; lia.
          - apply clauses_bound_app; [|apply clauses_bound_app; auto];
              (eapply clauses_bound_weaken; [|eassumption]; lia). }
        split; [lia|]. split; [|split].
        -- intros r Hr. rewrite !clauses_true_app, !andb_true_iff in Hr.
           destruct Hr as (Hr1 & Hr2 & Hr3). split; auto.
           rewrite IFF in Hr3. apply eqb_prop in Hr3.
           unfold clauses_true at 1; cbn [forallb clause_true existsb].
           rewrite lit_true_pos by lia. rewrite Hr3, (S1 r Hr2).
           now rewrite orb_false_r, andb_true_r.
        -- intros r Hr. destruct (S2 r) as (r1 & Ag & Tr).
           exists (upd r1 (k' + 1) (clause_true r1 ne)).
           assert (Ag1 : agree k' r1 (upd r1 (k' + 1) (clause_true r1 ne))).
           { apply upd_agree; lia. }
           split.
           { eapply agree_trans; [exact Ag|]. eapply agree_weaken; [|exact Ag1]; lia. }
           rewrite !clauses_true_app, !andb_true_iff. repeat split.
           ++ rewrite <- (clauses_true_agree k r); auto.
              eapply agree_trans; [exact Ag|]. eapply agree_weaken; [|exact Ag1]; lia.
           ++ rewrite <- (clauses_true_agree k' r1); auto.
           ++ rewrite IFF, upd_same. rewrite <- (clause_true_agree k' _ _ ne Ag1 B2).
              apply eqb_reflx.
        -- intros r r' Ag Hr Hr'. rewrite !clauses_true_app, !andb_true_iff in Hr, Hr'.
           destruct Hr as (_ & Hr2 & Hr3). destruct Hr' as (_ & Hr2' & Hr3').
           pose proof (S3 r r' Ag Hr2 Hr2') as Ag'.
           rewrite IFF in Hr3, Hr3'. apply eqb_prop in Hr3. apply eqb_prop in Hr3'.
           intros x Hx. destruct (Z.eq_dec x (k' + 1)) as [->|].
           ++ rewrite Hr3, Hr3'. apply (clause_true_agree k'); auto.
           ++ apply Ag'; lia.
Qed.

(* Negate only adds to the consistency clauses. *)
Lemma Negate_cons_extends : forall c opt,
  exists extra, cClauses (Negate c opt) = cClauses c ++ extra.
Proof.
  intros c opt. unfold Negate.
  destruct (sClauses c).
  - exists []. simpl. now rewrite app_nil_r.
  - destruct (hasEmptySemanticClause c).
    + exists []. simpl. now rewrite app_nil_r.
    + unfold tseytinNegation. cbn [sClauses cClauses].
      destruct (tseytin_loop _ _ _ _) as [k|[[k new] ne]].
      * exists []. simpl. now rewrite app_nil_r.
      * destruct (length ne =? 1)%nat; simpl.
        -- eauto.
        -- rewrite <- !app_assoc. eauto.
Qed.
