(* The counting circuits of LEL and LEH. *)
From Verif Require Import GoBase Cnf Query Walk Atoms Spec Sym AtomBase AtomSimple.
Local Open Scope Z_scope.
Local Open Scope list_scope.

Lemma and_iff2 : forall A B C D : Prop, (A <-> C) -> (B <-> D) -> (A /\ B <-> C /\ D).
Proof. tauto. Qed.

(* number of i < n with b i *)
Fixpoint cnt (b : Z -> bool) (n : nat) : Z :=
  match n with
  | O => 0
  | S m => cnt b m + (if b (Z.of_nat m) then 1 else 0)
  end.

Lemma cnt_range : forall b n, 0 <= cnt b n <= Z.of_nat n.
Proof. induction n; simpl cnt; [lia|]. destruct (b (Z.of_nat n)); lia. Qed.

Lemma cnt_ext : forall b b' n, (forall i, 0 <= i < Z.of_nat n -> b i = b' i) -> cnt b n = cnt b' n.
Proof.
  induction n; intros H; simpl; auto. rewrite IHn, H; auto; try lia. intros; apply H; lia.
Qed.

Lemma cnt_filter : forall b n, cnt b n = Z.of_nat (length (filter b (indices_below n))).
Proof.
  intros b n. unfold indices_below. induction n; auto.
  rewrite seq_S, map_app, filter_app, app_length, Nat2Z.inj_add, <- IHn. simpl.
  destruct (b (Z.of_nat n)); reflexivity.
Qed.

Definition counter (d : Z) (t : tval) (cv : string) (b : Z -> bool) : Prop :=
  t (cv, 0, 0) = negb (b 0) /\ t (cv, 0, 1) = b 0 /\
  (forall i, 1 <= i < d -> t (cv, i, 0) = t (cv, i - 1, 0) && negb (b i)) /\
  (forall i, 1 <= i < d -> forall j, 1 <= j < i + 2 ->
     t (cv, i, j) = if b i then t (cv, i - 1, j - 1) else t (cv, i - 1, j)) /\
  (forall i, 0 <= i < d -> forall j, i + 2 <= j < d + 1 -> t (cv, i, j) = false).

Definition counts (d : Z) (t : tval) (cv : string) (b : Z -> bool) : Prop :=
  forall i j, 0 <= i < d -> 0 <= j <= d -> t (cv, i, j) = (cnt b (S (Z.to_nat i)) =? j).

Lemma counter_counts : forall d t cv b, 0 < d -> (counter d t cv b <-> counts d t cv b).
Proof.
  intros d t cv b Hd. split.
  - intros (C1 & C2 & C3 & C4 & C5).
    assert (G : forall n, Z.of_nat n < d -> forall j, 0 <= j <= d ->
              t (cv, Z.of_nat n, j) = (cnt b (S n) =? j)).
    { induction n as [|n IH]; intros Hn j Hj.
      - simpl. destruct (Z.eq_dec j 0) as [->|N0]; [rewrite C1; destruct (b 0); reflexivity|].
        destruct (Z.eq_dec j 1) as [->|N1]; [rewrite C2; destruct (b 0); reflexivity|].
        rewrite C5 by lia. destruct (b 0); symmetry; apply Z.eqb_neq; lia.
      - set (i := Z.of_nat (S n)) in *.
        assert (Hi : i - 1 = Z.of_nat n) by lia.
        change (cnt b (S (S n))) with (cnt b (S n) + (if b i then 1 else 0)).
        pose proof (cnt_range b (S n)) as R.
        destruct (Z.eq_dec j 0) as [->|N0].
        + rewrite C3 by lia. rewrite Hi, IH by lia.
          destruct (b i); cbn [negb].
          * rewrite andb_false_r. symmetry; apply Z.eqb_neq; lia.
          * rewrite andb_true_r. f_equal; lia.
        + destruct (Z_lt_le_dec j (i + 2)) as [L|L].
          * rewrite C4 by lia. rewrite Hi. destruct (b i); rewrite IH by lia.
            -- destruct (Z.eqb_spec (cnt b (S n)) (j - 1)); destruct (Z.eqb_spec (cnt b (S n) + 1) j); auto; exfalso; lia.
            -- f_equal; lia.
          * rewrite C5 by lia. symmetry; apply Z.eqb_neq. destruct (b i); lia. }
    intros i j Hi Hj. rewrite <- G by lia. now rewrite Z2Nat.id by lia.
  - intros C. split; [|split; [|split; [|split]]].
    + rewrite C by lia. simpl. destruct (b 0); reflexivity.
    + rewrite C by lia. simpl. destruct (b 0); reflexivity.
    + intros i Hi. rewrite !C by lia.
      replace (S (Z.to_nat i)) with (S (S (Z.to_nat (i - 1)))) by lia.
      change (cnt b (S (S (Z.to_nat (i - 1))))) with
        (cnt b (S (Z.to_nat (i - 1))) + (if b (Z.of_nat (S (Z.to_nat (i - 1)))) then 1 else 0)).
      replace (Z.of_nat (S (Z.to_nat (i - 1)))) with i by lia.
      pose proof (cnt_range b (S (Z.to_nat (i - 1)))).
      destruct (b i); cbn [negb].
      * rewrite andb_false_r. apply Z.eqb_neq; lia.
      * rewrite andb_true_r. f_equal; lia.
    + intros i Hi j Hj. rewrite !C by lia.
      replace (S (Z.to_nat i)) with (S (S (Z.to_nat (i - 1)))) by lia.
      change (cnt b (S (S (Z.to_nat (i - 1))))) with
        (cnt b (S (Z.to_nat (i - 1))) + (if b (Z.of_nat (S (Z.to_nat (i - 1)))) then 1 else 0)).
      replace (Z.of_nat (S (Z.to_nat (i - 1)))) with i by lia.
      destruct (b i).
      * match goal with |- (?a =? ?b) = (?c =? ?e) => destruct (Z.eqb_spec a b); destruct (Z.eqb_spec c e); auto; exfalso; lia end.
      * f_equal; lia.
    + intros i Hi j Hj. rewrite C by lia. apply Z.eqb_neq.
      pose proof (cnt_range b (S (Z.to_nat i))). lia.
Qed.

Lemma no_excess_ok : forall d t cv,
  scls_true t (no_excess d cv) = true <->
  (forall i, 0 <= i < d -> forall j, i + 2 <= j < d + 1 -> t (cv, i, j) = false).
Proof.
  intros. unfold no_excess. rewrite scls_flat_map, forallb_zrange.
  split; intros H i Hi; specialize (H i Hi); rewrite scls_map, forallb_zrange in *.
  - intros j Hj. specialize (H j Hj). revert H; lits. now rewrite negb_true_iff.
  - intros j Hj. specialize (H j Hj). lits. now rewrite negb_true_iff.
Qed.

Lemma bot_count_ok : forall d t v cv,
  scls_true t (varBotCountClauses d v cv) = true <->
  counter d t cv (fun i => t (v, i, BOT)).
Proof.
  intros d t v cv. unfold varBotCountClauses. rewrite !scls_true_app, !andb_true_iff.
  rewrite no_excess_ok, scls_flat_map, forallb_zrange. lits. unfold counter.
  assert (R : (forall i, 1 <= i < d -> scls_true t (count_row v cv i) = true) <->
     (forall i, 1 <= i < d -> t (cv, i, 0) = t (cv, i - 1, 0) && negb (t (v, i, BOT))) /\
     (forall i, 1 <= i < d -> forall j, 1 <= j < i + 2 ->
        t (cv, i, j) = if t (v, i, BOT) then t (cv, i - 1, j - 1) else t (cv, i - 1, j))).
  { assert (R1 : forall i, scls_true t (count_row v cv i) = true <->
       t (cv, i, 0) = t (cv, i - 1, 0) && negb (t (v, i, BOT)) /\
       (forall j, 1 <= j < i + 2 ->
        t (cv, i, j) = if t (v, i, BOT) then t (cv, i - 1, j - 1) else t (cv, i - 1, j))).
    { intros i. unfold count_row. rewrite scls_true_app, andb_true_iff, scls_flat_map, forallb_zrange.
      lits. apply and_iff2.
      - destruct (t (cv, i, 0)), (t (v, i, BOT)), (t (cv, i - 1, 0)); simpl; split; auto; discriminate.
      - split; intros H j Hj; specialize (H j Hj); revert H; lits;
        destruct (t (cv, i, j)), (t (v, i, BOT)), (t (cv, i - 1, j - 1)), (t (cv, i - 1, j)); simpl; auto; discriminate. }
    split.
    - intros H. split; intros i Hi; apply (R1 i); auto.
    - intros [H1 H2] i Hi. apply R1. auto. }
  rewrite R. clear R.
  assert (B : (negb (t (cv, 0, 1)) || t (v, 0, BOT)) && ((negb (t (v, 0, BOT)) || t (cv, 0, 1)) &&
     ((negb (t (cv, 0, 0)) || negb (t (v, 0, BOT))) && (t (v, 0, BOT) || t (cv, 0, 0)))) = true <->
     t (cv, 0, 0) = negb (t (v, 0, BOT)) /\ t (cv, 0, 1) = t (v, 0, BOT)).
  { destruct (t (cv, 0, 0)), (t (v, 0, BOT)), (t (cv, 0, 1)); simpl; intuition discriminate. }
  rewrite B. tauto.
Qed.

Lemma hd_count_ok : forall d t hd (e ne : Z -> slit),
  (forall i, slit_true t (e i) = negb (slit_true t (ne i))) ->
  (scls_true t (hd_first hd e ne ++ flat_map (hd_row hd e ne) (zrange 1 d) ++ no_excess d hd) = true <->
   counter d t hd (fun i => slit_true t (ne i))).
Proof.
  intros d t hd e ne He. rewrite !scls_true_app, !andb_true_iff.
  rewrite no_excess_ok, scls_flat_map, forallb_zrange. unfold hd_first, counter. lits.
  assert (R1 : forall i, scls_true t (hd_row hd e ne i) = true <->
       t (hd, i, 0) = t (hd, i - 1, 0) && negb (slit_true t (ne i)) /\
       (forall j, 1 <= j < i + 2 ->
        t (hd, i, j) = if slit_true t (ne i) then t (hd, i - 1, j - 1) else t (hd, i - 1, j))).
  { intros i. unfold hd_row. rewrite scls_true_app, andb_true_iff, scls_flat_map, forallb_zrange.
    lits. rewrite He. apply and_iff2.
    - destruct (t (hd, i, 0)), (slit_true t (ne i)), (t (hd, i - 1, 0)); simpl; split; auto; discriminate.
    - split; intros H j Hj; specialize (H j Hj); revert H; lits; rewrite He;
      destruct (t (hd, i, j)), (slit_true t (ne i)), (t (hd, i - 1, j - 1)), (t (hd, i - 1, j)); simpl; auto; discriminate. }
  assert (R : (forall i, 1 <= i < d -> scls_true t (hd_row hd e ne i) = true) <->
     (forall i, 1 <= i < d -> t (hd, i, 0) = t (hd, i - 1, 0) && negb (slit_true t (ne i))) /\
     (forall i, 1 <= i < d -> forall j, 1 <= j < i + 2 ->
        t (hd, i, j) = if slit_true t (ne i) then t (hd, i - 1, j - 1) else t (hd, i - 1, j))).
  { split.
    - intros H. split; intros i Hi; apply (R1 i); auto.
    - intros [H1 H2] i Hi. apply R1. auto. }
  rewrite R. clear R R1. rewrite !He.
  destruct (t (hd, 0, 0)), (t (hd, 0, 1)), (slit_true t (ne 0)); simpl; intuition discriminate.
Qed.

(* ---- LEL ---- *)

Definition bit_bot (e : inst) (i : Z) : bool := feat e i =? BOT.

Lemma cnt_bots : forall d e, cnt (bit_bot e) d = Z.of_nat (bots d e).
Proof. intros. rewrite cnt_filter. reflexivity. Qed.

Lemma bots_le : forall d e, (bots d e <= d)%nat.
Proof. intros. pose proof (cnt_range (bit_bot e) d). rewrite cnt_bots in H. lia. Qed.

(* With the clauses of a represented variable, the last row gives its count. *)
Lemma bot_count_last : forall d t v cv e, (0 < d)%nat -> rep d t v e ->
  (scls_true t (varBotCountClauses (Z.of_nat d) v cv) = true <->
   counts (Z.of_nat d) t cv (bit_bot e)).
Proof.
  intros d t v cv e Hd H. rewrite bot_count_ok, counter_counts by lia.
  unfold counts. split; intros C i j Hi Hj; rewrite C by auto; f_equal; apply cnt_ext;
    intros k Hk; unfold bit_bot; [|symmetry]; apply (rep_BOT d); auto; unfold in_range; lia.
Qed.

Lemma counts_last : forall d t cv e j, (0 < d)%nat -> counts (Z.of_nat d) t cv (bit_bot e) ->
  0 <= j <= Z.of_nat d ->
  t (cv, Z.of_nat d - 1, j) = (Z.of_nat (bots d e) =? j).
Proof.
  intros d t cv e j Hd C Hj. rewrite C by lia.
  replace (S (Z.to_nat (Z.of_nat d - 1))) with d by lia. now rewrite cnt_bots.
Qed.

Lemma scl_or : forall t cl, scl_true t cl = true <-> exists l, In l cl /\ slit_true t l = true.
Proof. intros. apply existsb_exists. Qed.

Lemma lel_vv_ok : forall d t c1 c2 e1 e2, (0 < d)%nat ->
  counts (Z.of_nat d) t c1 (bit_bot e1) -> counts (Z.of_nat d) t c2 (bit_bot e2) ->
  (scls_true t (lel_vv_sem (Z.of_nat d) c1 c2) = true <-> level_le d e1 e2).
Proof.
  intros d t c1 c2 e1 e2 Hd H1 H2. unfold lel_vv_sem, level_le. rewrite scls_map, forallb_zrange.
  pose proof (bots_le d e1) as B1. pose proof (bots_le d e2) as B2.
  assert (R : forall i, 0 <= i < Z.of_nat d ->
     (scl_true t (Ln c1 (Z.of_nat d - 1) i :: map (fun j => Lp c2 (Z.of_nat d - 1) j) (zrange 0 (i + 1))) = true
      <-> (Z.of_nat (bots d e1) = i -> Z.of_nat (bots d e2) <= i))).
  { intros i Hi. lits. rewrite (counts_last d _ _ e1) by (auto; lia).
    destruct (Z.eqb_spec (Z.of_nat (bots d e1)) i) as [E|E]; simpl.
    - rewrite scl_or. split.
      + intros (l & Hl & Ht) _. apply in_map_iff in Hl as (j & <- & Hj). apply In_zrange in Hj.
        rewrite slit_Lp, (counts_last d _ _ e2) in Ht by (auto; lia). apply Z.eqb_eq in Ht. lia.
      + intros H. exists (Lp c2 (Z.of_nat d - 1) (Z.of_nat (bots d e2))). split.
        * apply in_map_iff. eexists. split; eauto. apply In_zrange. specialize (H E). lia.
        * rewrite slit_Lp, (counts_last d _ _ e2) by (auto; lia). apply Z.eqb_refl.
    - split; auto. intros _ ?. contradiction. }
  split.
  - intros H. destruct (Nat.eq_dec (bots d e1) d) as [E|E]; [lia|].
    specialize (H (Z.of_nat (bots d e1))). rewrite R in H by lia. lia.
  - intros H i Hi. rewrite R by auto. lia.
Qed.

Lemma BotCount_bots : forall d c, length (cVal c) = d -> BotCount c = Z.of_nat (bots d (cVal c)).
Proof.
  intros d c Hc. rewrite <- cnt_bots. unfold BotCount.
  assert (G : forall l k pre, fold_left (fun count ft => if ft =? BOT then count + 1 else count) l k
     = k + (cnt (bit_bot (pre ++ l)) (length pre + length l) - cnt (bit_bot (pre ++ l)) (length pre))).
  { induction l as [|x l IH]; intros k pre; simpl.
    - rewrite Nat.add_0_r. lia.
    - rewrite (IH _ (pre ++ [x])). rewrite <- app_assoc, app_length. simpl app. simpl length.
      replace (length pre + 1 + length l)%nat with (length pre + S (length l))%nat by lia.
      replace (length pre + 1)%nat with (S (length pre)) by lia. simpl cnt.
      assert (E : bit_bot (pre ++ x :: l) (Z.of_nat (length pre)) = (x =? BOT)).
      { unfold bit_bot, feat. rewrite Nat2Z.id, app_nth2, Nat.sub_diag by lia. reflexivity. }
      rewrite E. destruct (x =? BOT); lia. }
  rewrite (G _ _ []). simpl. rewrite Hc. lia.
Qed.

Lemma lel_vc_ok : forall d t cv e c, (0 < d)%nat -> length (cVal c) = d ->
  counts (Z.of_nat d) t cv (bit_bot e) ->
  (scls_true t (lel_vc_sem (Z.of_nat d) cv c) = true <-> level_le d e (cVal c)).
Proof.
  intros d t cv e c Hd Hc H. unfold lel_vc_sem, level_le. rewrite scls_map, forallb_zrange.
  rewrite (BotCount_bots d) by auto.
  pose proof (bots_le d e) as B1. pose proof (bots_le d (cVal c)) as B2.
  split.
  - intros G. destruct (le_lt_dec (bots d (cVal c)) (bots d e)) as [L|L]; auto. exfalso.
    specialize (G (Z.of_nat (bots d e))). revert G. lits.
    rewrite (counts_last d _ _ e) by (auto; lia). rewrite Z.eqb_refl. simpl. intros G. specialize (G ltac:(lia)). discriminate.
  - intros L i Hi. lits. rewrite (counts_last d _ _ e) by (auto; lia). apply negb_true_iff, Z.eqb_neq. lia.
Qed.

Lemma lel_cv_ok : forall d t cv e c, (0 < d)%nat -> length (cVal c) = d ->
  counts (Z.of_nat d) t cv (bit_bot e) ->
  (scls_true t (lel_cv_sem (Z.of_nat d) cv c) = true <-> level_le d (cVal c) e).
Proof.
  intros d t cv e c Hd Hc H. unfold lel_cv_sem, level_le. rewrite scls_map, forallb_zrange.
  rewrite (BotCount_bots d) by auto.
  pose proof (bots_le d e) as B1. pose proof (bots_le d (cVal c)) as B2.
  split.
  - intros G. destruct (le_lt_dec (bots d e) (bots d (cVal c))) as [L|L]; auto. exfalso.
    specialize (G (Z.of_nat (bots d e))). revert G. lits.
    rewrite (counts_last d _ _ e) by (auto; lia). rewrite Z.eqb_refl. simpl. intros G. specialize (G ltac:(lia)). discriminate.
  - intros L i Hi. lits. rewrite (counts_last d _ _ e) by (auto; lia). apply negb_true_iff, Z.eqb_neq. lia.
Qed.

Lemma lel_cc_ok : forall d c1 c2, length (cVal c1) = d -> length (cVal c2) = d ->
  (negb (BotCount c1 <? BotCount c2) = true <-> level_le d (cVal c1) (cVal c2)).
Proof.
  intros d c1 c2 H1 H2. rewrite negb_true_iff, Z.ltb_ge, (BotCount_bots d c1), (BotCount_bots d c2) by auto.
  unfold level_le. lia.
Qed.

(* ---- LEH ---- *)

Definition bit_ne (e1 e2 : inst) (i : Z) : bool := negb (feat e1 i =? feat e2 i).

Lemma cnt_hamming : forall d e1 e2, cnt (bit_ne e1 e2) d = Z.of_nat (hamming d e1 e2).
Proof. intros. rewrite cnt_filter. reflexivity. Qed.
Lemma hamming_le : forall d e1 e2, (hamming d e1 e2 <= d)%nat.
Proof. intros. pose proof (cnt_range (bit_ne e1 e2) d). rewrite cnt_hamming in H. lia. Qed.
Lemma bit_ne_sym : forall e1 e2 i, bit_ne e1 e2 i = bit_ne e2 e1 i.
Proof. intros. unfold bit_ne. now rewrite Z.eqb_sym. Qed.
Lemma hamming_sym : forall d e1 e2, hamming d e1 e2 = hamming d e2 e1.
Proof.
  intros. apply Nat2Z.inj. rewrite <- !cnt_hamming. apply cnt_ext. intros; apply bit_ne_sym.
Qed.

Lemma counts_hd_last : forall d t hd e1 e2 j, (0 < d)%nat -> counts (Z.of_nat d) t hd (bit_ne e1 e2) ->
  0 <= j <= Z.of_nat d ->
  t (hd, Z.of_nat d - 1, j) = (Z.of_nat (hamming d e1 e2) =? j).
Proof.
  intros d t cv e1 e2 j Hd C Hj. rewrite C by lia.
  replace (S (Z.to_nat (Z.of_nat d - 1))) with d by lia. now rewrite cnt_hamming.
Qed.

Lemma hd_vc_ok : forall d t v c hd e, (0 < d)%nat -> rep d t v e -> valid_inst d c ->
  (scls_true t (hammingDistVC (Z.of_nat d) v c hd) = true <-> counts (Z.of_nat d) t hd (bit_ne e c)).
Proof.
  intros d t v c hd e Hd H Hc. unfold hammingDistVC.
  rewrite hd_count_ok by (intros; rewrite slit_Lp, slit_Ln, negb_involutive; auto).
  rewrite counter_counts by lia.
  unfold counts. split; intros C i j Hi Hj; rewrite C by auto; f_equal; apply cnt_ext;
    intros k Hk; rewrite slit_Ln; unfold bit_ne;
    rewrite (proj2 H k) by (unfold in_range; try lia; apply (valid_feat_at d); auto); reflexivity.
Qed.

Lemma hd_vv_ok : forall d t hd ef, (0 < d)%nat ->
  (scls_true t (hammingDistVV (Z.of_nat d) hd ef) = true <->
   counts (Z.of_nat d) t hd (fun i => negb (t (ef, i, 0)))).
Proof.
  intros d t hd ef Hd. unfold hammingDistVV.
  rewrite hd_count_ok by (intros; rewrite slit_Lp, slit_Ln, negb_involutive; auto).
  rewrite counter_counts by lia. reflexivity.
Qed.

Lemma ef_ok : forall d t v1 v2 ef e1 e2, rep d t v1 e1 -> rep d t v2 e2 ->
  (scls_true t (fullVarEqualClauses (Z.of_nat d) v1 v2 ef) = true <->
   forall i, in_range d i -> feat e1 i <> BOT -> feat e2 i <> BOT ->
     t (ef, i, 0) = (feat e1 i =? feat e2 i)).
Proof.
  intros d t v1 v2 ef e1 e2 H1 H2. unfold fullVarEqualClauses. rewrite scls_flat_map, forallb_zrange.
  apply iff_forall_range. intros i Hi. lits.
  rewrite (rep_ONE _ _ _ _ _ H1 Hi), (rep_ONE _ _ _ _ _ H2 Hi), (rep_ZERO _ _ _ _ _ H1 Hi), (rep_ZERO _ _ _ _ _ H2 Hi).
  feat3 H1 i; feat3 H2 i; destruct (t (ef, i, 0)); simpl; split; auto; try discriminate;
    intros H; try (exfalso; apply H; reflexivity); try congruence;
    try (specialize (H ltac:(discriminate) ltac:(discriminate)); discriminate).
Qed.

Lemma leh_sem_ok : forall d t h1 h2 a1 b1 a2 b2, (0 < d)%nat ->
  counts (Z.of_nat d) t h1 (bit_ne a1 b1) -> counts (Z.of_nat d) t h2 (bit_ne a2 b2) ->
  (scls_true t (leh_sem (Z.of_nat d) h1 h2) = true <-> (hamming d a1 b1 <= hamming d a2 b2)%nat).
Proof.
  intros d t h1 h2 a1 b1 a2 b2 Hd H1 H2. unfold leh_sem. rewrite scls_flat_map, forallb_zrange.
  pose proof (hamming_le d a1 b1) as B1. pose proof (hamming_le d a2 b2) as B2.
  split.
  - intros G. destruct (le_lt_dec (hamming d a1 b1) (hamming d a2 b2)) as [L|L]; auto. exfalso.
    specialize (G (Z.of_nat (hamming d a1 b1)) ltac:(lia)). rewrite scls_map, forallb_zrange in G.
    specialize (G (Z.of_nat (hamming d a2 b2)) ltac:(lia)). revert G. lits.
    rewrite (counts_hd_last d _ _ a1 b1), (counts_hd_last d _ _ a2 b2) by (auto; lia).
    rewrite !Z.eqb_refl. discriminate.
  - intros L i Hi. rewrite scls_map, forallb_zrange. intros j Hj. lits.
    rewrite (counts_hd_last d _ _ a1 b1), (counts_hd_last d _ _ a2 b2) by (auto; lia).
    destruct (Z.eqb_spec (Z.of_nat (hamming d a1 b1)) i); destruct (Z.eqb_spec (Z.of_nat (hamming d a2 b2)) j); auto; lia.
Qed.

Lemma hd_cc_ok : forall d a b, length a = d -> length b = d ->
  hammingDistCC a b = Z.of_nat (hamming d a b).
Proof.
  intros d a b Ha Hb. rewrite <- cnt_hamming. unfold hammingDistCC.
  assert (G : forall l l' k p p', length l = length l' -> length p = length p' ->
     fold_left (fun hd q => if negb (fst q =? snd q) then hd + 1 else hd) (combine l l') k
     = k + (cnt (bit_ne (p ++ l) (p' ++ l')) (length p + length l) - cnt (bit_ne (p ++ l) (p' ++ l')) (length p))).
  { induction l as [|x l IH]; intros [|y l'] k p p' HL HP; try discriminate.
    - simpl. rewrite Nat.add_0_r. lia.
    - simpl combine. cbn [fold_left fst snd]. injection HL as HL.
      rewrite (IH l' _ (p ++ [x]) (p' ++ [y])) by (rewrite ?app_length; simpl; lia).
      rewrite <- !app_assoc, !app_length. simpl app. simpl length.
      replace (length p + 1 + length l)%nat with (length p + S (length l))%nat by lia.
      replace (length p + 1)%nat with (S (length p)) by lia. simpl cnt.
      assert (E : bit_ne (p ++ x :: l) (p' ++ y :: l') (Z.of_nat (length p)) = negb (x =? y)).
      { unfold bit_ne, feat. rewrite Nat2Z.id, !app_nth2, Nat.sub_diag by lia.
        rewrite HP, Nat.sub_diag. reflexivity. }
      rewrite E. destruct (x =? y); simpl; lia. }
  rewrite (G a b 0 [] []) by (simpl; congruence). simpl. rewrite Ha. lia.
Qed.

Lemma leh_upper_ok : forall d t h a b k, (0 < d)%nat -> 0 <= k ->
  counts (Z.of_nat d) t h (bit_ne a b) ->
  (scls_true t (map (fun i => [Ln h (Z.of_nat d - 1) i]) (zrange (k + 1) (Z.of_nat d + 1))) = true <->
   Z.of_nat (hamming d a b) <= k).
Proof.
  intros d t h a b k Hd Hk H. rewrite scls_map, forallb_zrange.
  pose proof (hamming_le d a b) as B1. split.
  - intros G. destruct (Z_le_gt_dec (Z.of_nat (hamming d a b)) k) as [L|L]; auto. exfalso.
    specialize (G (Z.of_nat (hamming d a b)) ltac:(lia)). revert G. lits.
    rewrite (counts_hd_last d _ _ a b) by (auto; lia). rewrite Z.eqb_refl. discriminate.
  - intros L i Hi. lits. rewrite (counts_hd_last d _ _ a b) by (auto; lia). apply negb_true_iff, Z.eqb_neq. lia.
Qed.

Lemma leh_lower_ok : forall d t h a b k, (0 < d)%nat -> k <= Z.of_nat d ->
  counts (Z.of_nat d) t h (bit_ne a b) ->
  (scls_true t (map (fun i => [Ln h (Z.of_nat d - 1) i]) (zrange 0 k)) = true <->
   k <= Z.of_nat (hamming d a b)).
Proof.
  intros d t h a b k Hd Hk H. rewrite scls_map, forallb_zrange.
  pose proof (hamming_le d a b) as B1. split.
  - intros G. destruct (Z_le_gt_dec k (Z.of_nat (hamming d a b))) as [L|L]; auto. exfalso.
    specialize (G (Z.of_nat (hamming d a b)) ltac:(lia)). revert G. lits.
    rewrite (counts_hd_last d _ _ a b) by (auto; lia). rewrite Z.eqb_refl. discriminate.
  - intros L i Hi. lits. rewrite (counts_hd_last d _ _ a b) by (auto; lia). apply negb_true_iff, Z.eqb_neq. lia.
Qed.
