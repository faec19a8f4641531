(* Decision trees: facts of the specification, without the encoders. *)
From Verif Require Import GoBase GoLemmas Cnf Query Walk Atoms Spec Sym AtomBase.
Local Open Scope Z_scope.
Local Open Scope list_scope.

(* ---- updates of instances ---- *)

Lemma list_set_length : forall A (l : list A) n x, length (list_set l n x) = length l.
Proof. induction l as [|a l IH]; intros [|n] x; simpl; auto. Qed.
Lemma list_set_same : forall A (l : list A) n x dflt, (n < length l)%nat -> nth n (list_set l n x) dflt = x.
Proof. induction l as [|a l IH]; intros [|n] x dflt H; simpl in *; auto; try lia. apply IH. lia. Qed.
Lemma list_set_other : forall A (l : list A) n m x dflt, n <> m -> nth m (list_set l n x) dflt = nth m l dflt.
Proof. induction l as [|a l IH]; intros [|n] [|m] x dflt H; simpl; auto; try lia. Qed.
Lemma list_set_nth_error_same : forall A (l : list A) n x, (n < length l)%nat -> nth_error (list_set l n x) n = Some x.
Proof. induction l as [|a l IH]; intros [|n] x H; simpl in *; auto; try lia. apply IH. lia. Qed.
Lemma list_set_nth_error_other : forall A (l : list A) n m x, n <> m -> nth_error (list_set l n x) m = nth_error l m.
Proof. induction l as [|a l IH]; intros [|n] [|m] x H; simpl; auto; try lia. Qed.
Lemma list_set_id : forall A (l : list A) n x, nth_error l n = Some x -> list_set l n x = l.
Proof.
  induction l as [|a l IH]; intros [|n] x H; simpl in *; try discriminate; [congruence|].
  f_equal. auto.
Qed.
Lemma list_set_set : forall A (l : list A) n x y, list_set (list_set l n x) n y = list_set l n y.
Proof. induction l as [|a l IH]; intros [|n] x y; simpl; auto. f_equal. auto. Qed.

Lemma feat_set_same : forall d e f x, length e = d -> in_range d f -> feat (set_feat e f x) f = x.
Proof. intros d e f x He Hf. unfold feat, set_feat, in_range in *. apply list_set_same. lia. Qed.
Lemma feat_set_other : forall d e f g x, in_range d f -> in_range d g -> f <> g ->
  feat (set_feat e f x) g = feat e g.
Proof. intros d e f g x Hf Hg N. unfold feat, set_feat, in_range in *. apply list_set_other. lia. Qed.
Lemma set_feat_length : forall e f x, length (set_feat e f x) = length e.
Proof. intros. apply list_set_length. Qed.
Lemma set_feat_valid : forall d e f x, valid_inst d e -> valid_feat x -> valid_inst d (set_feat e f x).
Proof.
  intros d e f x [H1 H2] Hx. split; [now rewrite set_feat_length|].
  unfold set_feat. clear H1. revert H2. generalize (Z.to_nat f). induction e as [|a e IH]; intros [|n] H; simpl; auto;
  inversion H; subst; constructor; auto.
Qed.
Lemma all_bot_valid : forall d, valid_inst d (all_bot d).
Proof.
  intros d. unfold all_bot. split; [apply repeat_length|]. apply Forall_forall. intros x Hx.
  apply repeat_spec in Hx. left. auto.
Qed.
Lemma all_bot_feat : forall d i, feat (all_bot d) i = BOT.
Proof.
  intros. unfold feat, all_bot. destruct (nth_in_or_default (Z.to_nat i) (repeat BOT d) BOT) as [H|H]; auto.
  now apply repeat_spec in H.
Qed.

(* ---- all completions ---- *)

(* the tree restricted to the branches compatible with e has only leafs b *)
Fixpoint allc (b : bool) (e : inst) (t : tree) : bool :=
  match t with
  | Leaf _ v => eqb v b
  | Split _ f z o =>
      if feat e f =? BOT then allc b e z && allc b e o
      else if feat e f =? ONE then allc b e o else allc b e z
  end.

Lemma allc_ext : forall d b t used e e', read_once d used t ->
  (forall i, in_range d i -> ~ In i used -> feat e i = feat e' i) -> allc b e t = allc b e' t.
Proof.
  induction t as [i v|i f z IHz o IHo]; intros used e e' R H; simpl; auto.
  destruct R as (Rf & Ru & Rz & Ro).
  rewrite (H f Rf Ru).
  rewrite (IHz (f :: used) e e'), (IHo (f :: used) e e'); auto;
    intros j Hj N; apply H; auto; simpl in N; tauto.
Qed.

Lemma classify_ext : forall d t used x x', read_once d used t ->
  (forall i, in_range d i -> ~ In i used -> feat x i = feat x' i) -> classify t x = classify t x'.
Proof.
  induction t as [i v|i f z IHz o IHo]; intros used e e' R H; simpl; auto.
  destruct R as (Rf & Ru & Rz & Ro). rewrite (H f Rf Ru).
  rewrite (IHz (f :: used) e e'), (IHo (f :: used) e e'); auto;
    intros j Hj N; apply H; auto; simpl in N; tauto.
Qed.

(* some completion *)
Definition fill (e : inst) : inst := map (fun x => if x =? BOT then ZERO else x) e.
Lemma fill_feat : forall d e i, length e = d -> in_range d i ->
  feat (fill e) i = if feat e i =? BOT then ZERO else feat e i.
Proof.
  intros d e i He Hi. unfold feat, fill. rewrite (nth_indep _ BOT (if BOT =? BOT then ZERO else BOT)).
  - now rewrite (map_nth (fun x => if x =? BOT then ZERO else x)).
  - rewrite map_length. unfold in_range in Hi. lia.
Qed.
Lemma fill_completion : forall d e, valid_inst d e -> completion d e (fill e).
Proof.
  intros d e H. split; [|split].
  - destruct H as [H1 H2]. split; [unfold fill; now rewrite map_length|].
    unfold fill. rewrite Forall_map. apply Forall_forall. intros x Hx.
    rewrite Forall_forall in H2. destruct (H2 x Hx) as [->|[->| ->]]; simpl; unfold valid_feat; auto.
  - intros i Hi. rewrite (fill_feat d) by (auto; apply H).
    destruct (Z.eqb_spec (feat e i) BOT); auto. discriminate.
  - intros i Hi. rewrite (fill_feat d) by (auto; apply H).
    destruct (Z.eqb_spec (feat e i) BOT); auto.
Qed.

Lemma full_feat : forall d x i, valid_inst d x -> full d x -> in_range d i ->
  feat x i = ZERO \/ feat x i = ONE.
Proof.
  intros d x i H F Hi. specialize (F i Hi). destruct (valid_feat_at d x i H) as [E|[E|E]]; auto; contradiction.
Qed.

Lemma allc_classify : forall d b t used e x, read_once d used t -> valid_inst d e ->
  completion d e x -> allc b e t = true -> classify t x = b.
Proof.
  induction t as [i v|i f z IHz o IHo]; intros used e x R He Hx H; simpl in *.
  - now apply eqb_prop.
  - destruct R as (Rf & Ru & Rz & Ro). destruct Hx as (V & F & S).
    assert (Cx : completion d e x) by (split; auto).
    destruct (S f Rf) as [E|E].
    + rewrite E in H. simpl in H. apply andb_true_iff in H as [H1 H2].
      destruct (feat x f =? ONE); eauto.
    + rewrite E in H. destruct (Z.eqb_spec (feat x f) BOT) as [E'|E']; [elim (F f Rf E')|].
      destruct (feat x f =? ONE); eauto.
Qed.

Lemma completion_set : forall d e f v x, valid_inst d e -> in_range d f -> feat e f = BOT ->
  completion d (set_feat e f v) x -> completion d e x.
Proof.
  intros d e f v x He Hf E (V & F & S). split; [auto|split; auto].
  intros i Hi. destruct (Z.eq_dec i f) as [->|N]; [auto|].
  specialize (S i Hi). rewrite (feat_set_other d) in S; auto.
Qed.

(* AllComp read on the tree *)
Lemma all_comp_allc : forall d b t used e, read_once d used t -> valid_inst d e ->
  (all_comp d t b e <-> allc b e t = true).
Proof.
  intros d b t used e R He. split.
  2:{ intros H x Hx. eapply allc_classify; eauto. }
  revert used e R He. induction t as [i v|i f z IHz o IHo]; intros used e R He H.
  - simpl. specialize (H _ (fill_completion d e He)). simpl in H. subst. apply eqb_reflx.
  - destruct R as (Rf & Ru & Rz & Ro). simpl.
    destruct (Z.eqb_spec (feat e f) BOT) as [E|E].
    + apply andb_true_iff. split.
      * rewrite (allc_ext d b z (f :: used) e (set_feat e f ZERO)); auto.
        2:{ intros j Hj N. rewrite (feat_set_other d); auto. simpl in N. tauto. }
        eapply IHz; eauto. { apply set_feat_valid; auto. right; left; auto. }
        intros x Hx. specialize (H x (completion_set _ _ _ _ _ He Rf E Hx)). simpl in H.
        destruct Hx as (V & F & S). destruct (S f Rf) as [Q|Q]; rewrite (feat_set_same d) in Q; auto; try (apply He); try discriminate.
        rewrite <- Q in H. exact H.
      * rewrite (allc_ext d b o (f :: used) e (set_feat e f ONE)); auto.
        2:{ intros j Hj N. rewrite (feat_set_other d); auto. simpl in N. tauto. }
        eapply IHo; eauto. { apply set_feat_valid; auto. right; right; auto. }
        intros x Hx. specialize (H x (completion_set _ _ _ _ _ He Rf E Hx)). simpl in H.
        destruct Hx as (V & F & S). destruct (S f Rf) as [Q|Q]; rewrite (feat_set_same d) in Q; auto; try (apply He); try discriminate.
        rewrite <- Q in H. exact H.
    + destruct (Z.eqb_spec (feat e f) ONE) as [E1|E1].
      * eapply IHo; eauto. intros x Hx. specialize (H x Hx). simpl in H.
        destruct Hx as (V & F & S). destruct (S f Rf) as [Q|Q]; [congruence|].
        rewrite <- Q, E1 in H. exact H.
      * eapply IHz; eauto. intros x Hx. specialize (H x Hx). simpl in H.
        destruct Hx as (V & F & S). destruct (S f Rf) as [Q|Q]; [congruence|].
        rewrite <- Q in H. destruct (Z.eqb_spec (feat e f) ONE); [contradiction|]. exact H.
Qed.

(* ---- leafs ---- *)

(* partial instances of the leafs with their class, in preorder *)
Fixpoint leaf_insts (e : inst) (t : tree) : list (inst * bool) :=
  match t with
  | Leaf _ b => [(e, b)]
  | Split _ f z o => leaf_insts (set_feat e f ZERO) z ++ leaf_insts (set_feat e f ONE) o
  end.

(* what a branch leaves alone *)
Lemma leaf_insts_keep : forall d t used e l b, read_once d used t -> length e = d ->
  In (l, b) (leaf_insts e t) -> length l = d /\ forall i, in_range d i -> In i used -> feat l i = feat e i.
Proof.
  induction t as [i v|i f z IHz o IHo]; intros used e l b R He H; simpl in H.
  - destruct H as [[= <- <-]|[]]. auto.
  - destruct R as (Rf & Ru & Rz & Ro). apply in_app_or in H as [H|H].
    + destruct (IHz _ _ _ _ Rz (eq_trans (set_feat_length _ _ _) He) H) as [H1 H2]. split; auto.
      intros j Hj Hu. rewrite H2 by (auto; simpl; auto). apply (feat_set_other d); auto. intros ->; contradiction.
    + destruct (IHo _ _ _ _ Ro (eq_trans (set_feat_length _ _ _) He) H) as [H1 H2]. split; auto.
      intros j Hj Hu. rewrite H2 by (auto; simpl; auto). apply (feat_set_other d); auto. intros ->; contradiction.
Qed.

Lemma leaf_insts_valid : forall d t used e l b, read_once d used t -> valid_inst d e ->
  In (l, b) (leaf_insts e t) -> valid_inst d l.
Proof.
  induction t as [i v|i f z IHz o IHo]; intros used e l b R He H; simpl in H.
  - destruct H as [[= <- <-]|[]]. auto.
  - destruct R as (Rf & Ru & Rz & Ro). apply in_app_or in H as [H|H]; [apply (IHz _ _ _ b Rz) in H|apply (IHo _ _ _ b Ro) in H]; auto;
      apply set_feat_valid; auto; unfold valid_feat; auto.
Qed.

(* a full instance falls in the leaf it subsumes *)
Lemma classify_leaf : forall d t used e x, read_once d used t -> length e = d ->
  (forall i, in_range d i -> ~ In i used -> feat e i = BOT) ->
  subsumed d e x -> valid_inst d x -> full d x ->
  exists l, In (l, classify t x) (leaf_insts e t) /\ subsumed d l x.
Proof.
  induction t as [i v|i f z IHz o IHo]; intros used e x R He Hb S V F; simpl.
  - exists e. auto.
  - destruct R as (Rf & Ru & Rz & Ro).
    assert (G : forall w, feat x f = w -> (forall i, in_range d i -> ~ In i (f :: used) -> feat (set_feat e f w) i = BOT) /\ subsumed d (set_feat e f w) x).
    { intros w Hw. split.
      - intros j Hj N. simpl in N. rewrite (feat_set_other d); auto.
      - intros j Hj. destruct (Z.eq_dec j f) as [->|N].
        + right. rewrite (feat_set_same d); auto.
        + rewrite (feat_set_other d); auto. }
    destruct (full_feat d x f V F Rf) as [E|E].
    + destruct (G _ E) as [G1 G2]. rewrite E. simpl.
      destruct (IHz (f :: used) (set_feat e f ZERO) x) as (l & H1 & H2); auto; [now rewrite set_feat_length|].
      exists l. split; auto. apply in_or_app; auto.
    + destruct (G _ E) as [G1 G2]. rewrite E. simpl.
      destruct (IHo (f :: used) (set_feat e f ONE) x) as (l & H1 & H2); auto; [now rewrite set_feat_length|].
      exists l. split; auto. apply in_or_app; auto.
Qed.

Lemma leaf_classify : forall d t used e l b x, read_once d used t -> length e = d ->
  In (l, b) (leaf_insts e t) -> subsumed d l x -> full d x -> classify t x = b.
Proof.
  induction t as [i v|i f z IHz o IHo]; intros used e l b x R He H S F; simpl in *.
  - destruct H as [[= <- <-]|[]]. auto.
  - destruct R as (Rf & Ru & Rz & Ro).
    apply in_app_or in H as [H|H].
    + destruct (leaf_insts_keep _ _ _ _ _ _ Rz (eq_trans (set_feat_length _ _ _) He) H) as [_ K].
      specialize (K f Rf (or_introl eq_refl)). rewrite (feat_set_same d) in K by auto.
      destruct (S f Rf) as [Q|Q]; rewrite K in Q; [discriminate|].
      rewrite <- Q. simpl. apply (IHz (f :: used) (set_feat e f ZERO) l b x); auto. now rewrite set_feat_length.
    + destruct (leaf_insts_keep _ _ _ _ _ _ Ro (eq_trans (set_feat_length _ _ _) He) H) as [_ K].
      specialize (K f Rf (or_introl eq_refl)). rewrite (feat_set_same d) in K by auto.
      destruct (S f Rf) as [Q|Q]; rewrite K in Q; [discriminate|].
      rewrite <- Q. simpl. apply (IHo (f :: used) (set_feat e f ONE) l b x); auto. now rewrite set_feat_length.
Qed.

(* ---- determinant feature sets ---- *)

(* p and n are told apart by a feature defined in e *)
Definition separated (d : nat) (e p n : inst) : Prop :=
  exists i, in_range d i /\ feat e i <> BOT /\ feat p i <> BOT /\ feat n i <> BOT /\ feat p i <> feat n i.

Definition mix (d : nat) (f : Z -> FeatV) : inst := map f (indices_below d).
Lemma mix_feat : forall d f i, in_range d i -> feat (mix d f) i = f i.
Proof. intros. apply feat_map_below; auto. Qed.
Lemma mix_valid : forall d f, (forall i, in_range d i -> valid_feat (f i)) -> valid_inst d (mix d f).
Proof.
  intros d f H. split; [unfold mix, indices_below; now rewrite !map_length, seq_length|].
  unfold mix. rewrite Forall_map. apply Forall_forall. intros i Hi.
  apply H. unfold indices_below in Hi. apply in_map_iff in Hi as (k & <- & Hk). apply in_seq in Hk.
  unfold in_range. lia.
Qed.

Lemma determinant_iff : forall d t e, read_once d [] t -> valid_inst d e ->
  (determinant d t e <->
   forall p n, In (p, true) (leaf_insts (all_bot d) t) -> In (n, false) (leaf_insts (all_bot d) t) ->
     separated d e p n).
Proof.
  intros d t e R He.
  pose proof (all_bot_valid d) as AB. split.
  - intros D p n Hp Hn.
    assert (Vp := leaf_insts_valid _ _ _ _ _ _ R AB Hp).
    assert (Vn := leaf_insts_valid _ _ _ _ _ _ R AB Hn).
    destruct (existsb (fun i => negb (feat e i =? BOT) && negb (feat p i =? BOT) && negb (feat n i =? BOT)
                                 && negb (feat p i =? feat n i)) (indices_below d)) eqn:Q.
    + apply existsb_exists in Q as (i & Hi & Hq). rewrite !andb_true_iff, !negb_true_iff, !Z.eqb_neq in Hq.
      exists i. split; [|tauto]. unfold indices_below in Hi. apply in_map_iff in Hi as (k & <- & Hk). apply in_seq in Hk.
      unfold in_range. lia.
    + exfalso.
      assert (Q' : forall i, in_range d i -> feat e i <> BOT -> feat p i <> BOT -> feat n i <> BOT -> feat p i = feat n i).
      { intros i Hi H1 H2 H3. destruct (Z.eq_dec (feat p i) (feat n i)) as [|N]; auto. exfalso.
        apply not_true_iff_false in Q. apply Q. apply existsb_exists. exists i. split.
        - unfold indices_below. apply in_map_iff. exists (Z.to_nat i). unfold in_range in Hi. split; [lia|apply in_seq; lia].
        - rewrite !andb_true_iff, !negb_true_iff, !Z.eqb_neq. auto. }
      clear Q.
      set (e' := mix d (fun i => if feat e i =? BOT then BOT else if negb (feat p i =? BOT) then feat p i
                                 else if negb (feat n i =? BOT) then feat n i else ZERO)).
      assert (Ve' : valid_inst d e').
      { apply mix_valid. intros i Hi. pose proof (valid_feat_at d p i Vp). pose proof (valid_feat_at d n i Vn).
        unfold valid_feat in *.
        destruct (feat e i =? BOT); auto. destruct (feat p i =? BOT); simpl; auto. destruct (feat n i =? BOT); simpl; auto. }
      assert (Sb : forall i, in_range d i -> (feat e i = BOT <-> feat e' i = BOT)).
      { intros i Hi. unfold e'. rewrite mix_feat by auto. destruct (Z.eqb_spec (feat e i) BOT) as [E|E]; [tauto|].
        split; [contradiction|]. destruct (Z.eqb_spec (feat p i) BOT); simpl; [|congruence].
        destruct (Z.eqb_spec (feat n i) BOT); simpl; [discriminate|congruence]. }
      destruct (D e' Ve' Sb) as [b Hb].
      assert (X : forall q, In (q, true) (leaf_insts (all_bot d) t) \/ In (q, false) (leaf_insts (all_bot d) t) ->
                 (forall i, in_range d i -> feat e i <> BOT -> feat q i <> BOT -> feat e' i = feat q i) ->
                 exists x, completion d e' x /\ subsumed d q x).
      { intros q Hq Hqe.
        assert (Vq : valid_inst d q) by (destruct Hq as [Hq|Hq]; exact (leaf_insts_valid _ _ _ _ _ _ R AB Hq)).
        set (x := mix d (fun i => if negb (feat e' i =? BOT) then feat e' i else if negb (feat q i =? BOT) then feat q i else ZERO)).
        exists x. split; [split; [|split]|].
        - apply mix_valid. intros i Hi. pose proof (valid_feat_at d q i Vq). pose proof (valid_feat_at d e' i Ve').
          unfold valid_feat in *. destruct (feat e' i =? BOT); simpl; auto. destruct (feat q i =? BOT); simpl; auto.
        - intros i Hi. unfold x. rewrite mix_feat by auto. destruct (Z.eqb_spec (feat e' i) BOT); simpl; auto.
          destruct (Z.eqb_spec (feat q i) BOT); simpl; auto. discriminate.
        - intros i Hi. unfold x. rewrite mix_feat by auto. destruct (Z.eqb_spec (feat e' i) BOT); simpl; auto.
        - intros i Hi. unfold x. rewrite mix_feat by auto.
          destruct (Z.eqb_spec (feat q i) BOT) as [|Nq]; simpl; auto. right.
          destruct (Z.eqb_spec (feat e' i) BOT) as [|Ne]; simpl; auto.
          symmetry. apply Hqe; auto. rewrite Sb; auto. }
      destruct (X p (or_introl Hp)) as (x & Cx & Sx).
      { intros i Hi H1 H2. unfold e'. rewrite mix_feat by auto.
        destruct (Z.eqb_spec (feat e i) BOT); [contradiction|]. destruct (Z.eqb_spec (feat p i) BOT); [contradiction|]. reflexivity. }
      destruct (X n (or_intror Hn)) as (y & Cy & Sy).
      { intros i Hi H1 H2. unfold e'. rewrite mix_feat by auto.
        destruct (Z.eqb_spec (feat e i) BOT); [contradiction|].
        destruct (Z.eqb_spec (feat p i) BOT); simpl; auto.
        destruct (Z.eqb_spec (feat n i) BOT); simpl; auto. contradiction. }
      pose proof (Hb x Cx) as Bx. pose proof (Hb y Cy) as By.
      rewrite (leaf_classify d t [] (all_bot d) p true x) in Bx; auto; try apply AB; try apply Cx.
      rewrite (leaf_classify d t [] (all_bot d) n false y) in By; auto; try apply AB; try apply Cy.
      congruence.
  - intros H e' Ve' Sb.
    destruct (allc true e' t) eqn:At.
    { exists true. apply (all_comp_allc d true t [] e'); auto. }
    exists false. intros y Cy. destruct (classify t y) eqn:Ky; auto. exfalso.
    (* a completion of class false exists *)
    assert (Hx : exists x, completion d e' x /\ classify t x = false).
    { destruct (allc false e' t) eqn:Af.
      - exists y. split; auto. eapply allc_classify; eauto.
      - assert (Gx : forall t used e, read_once d used t -> valid_inst d e -> allc true e t = false ->
                     exists x, completion d e x /\ classify t x = false).
        { clear. induction t as [i v|i f z IHz o IHo]; intros used e R He H; simpl in H.
          - exists (fill e). split; [now apply fill_completion|]. simpl. destruct v; auto; discriminate.
          - destruct R as (Rf & Ru & Rz & Ro).
            destruct (Z.eqb_spec (feat e f) BOT) as [E|E].
            + apply andb_false_iff in H as [H|H].
              * rewrite (allc_ext d true z (f :: used) e (set_feat e f ZERO)) in H; auto.
                2:{ intros j Hj N. rewrite (feat_set_other d); auto. simpl in N. tauto. }
                assert (V0 : valid_inst d (set_feat e f ZERO)) by (apply set_feat_valid; auto; unfold valid_feat; auto).
                destruct (IHz _ _ Rz V0 H) as (x & Cx & Kx). exists x. split; [eapply completion_set; eauto|].
                destruct Cx as (V & F & S). destruct (S f Rf) as [Q|Q]; rewrite (feat_set_same d) in Q; auto; try (apply He); try discriminate.
                simpl. rewrite <- Q. exact Kx.
              * rewrite (allc_ext d true o (f :: used) e (set_feat e f ONE)) in H; auto.
                2:{ intros j Hj N. rewrite (feat_set_other d); auto. simpl in N. tauto. }
                assert (V0 : valid_inst d (set_feat e f ONE)) by (apply set_feat_valid; auto; unfold valid_feat; auto).
                destruct (IHo _ _ Ro V0 H) as (x & Cx & Kx). exists x. split; [eapply completion_set; eauto|].
                destruct Cx as (V & F & S). destruct (S f Rf) as [Q|Q]; rewrite (feat_set_same d) in Q; auto; try (apply He); try discriminate.
                simpl. rewrite <- Q. exact Kx.
            + destruct (Z.eqb_spec (feat e f) ONE) as [E1|E1].
              * destruct (IHo _ _ Ro He H) as (x & Cx & Kx). exists x. split; auto.
                destruct Cx as (V & F & S). destruct (S f Rf) as [Q|Q]; [congruence|].
                simpl. rewrite <- Q, E1. exact Kx.
              * destruct (IHz _ _ Rz He H) as (x & Cx & Kx). exists x. split; auto.
                destruct Cx as (V & F & S). destruct (S f Rf) as [Q|Q]; [congruence|].
                simpl. rewrite <- Q. destruct (Z.eqb_spec (feat e f) ONE); [contradiction|]. exact Kx. }
        eapply Gx; eauto. }
    destruct Hx as (x & Cx & Kx).
    assert (L : forall w, completion d e' w -> exists l, In (l, classify t w) (leaf_insts (all_bot d) t) /\ subsumed d l w).
    { intros w (V & F & S). apply (classify_leaf d t []); auto; try apply AB.
      - intros; apply all_bot_feat.
      - intros i Hi. left. apply all_bot_feat. }
    destruct (L y Cy) as (p & Hp & Sp). destruct (L x Cx) as (n & Hn & Sn).
    rewrite Ky in Hp. rewrite Kx in Hn.
    destruct (H p n Hp Hn) as (i & Hi & Ne & Np & Nn & Npn).
    destruct Cx as (_ & _ & Sx). destruct Cy as (_ & _ & Sy).
    assert (Ne' : feat e' i <> BOT) by (rewrite <- Sb; auto).
    destruct (Sx i Hi) as [Q|Q]; [congruence|]. destruct (Sy i Hi) as [Q'|Q']; [congruence|].
    destruct (Sp i Hi) as [Qp|Qp]; [congruence|]. destruct (Sn i Hi) as [Qn|Qn]; [congruence|].
    congruence.
Qed.

(* ---- node instances ---- *)

(* features tested on the branch e follows until a BOT or a leaf *)
Fixpoint path_feats (e : inst) (t : tree) : list Z :=
  match t with
  | Leaf _ _ => []
  | Split _ f z o =>
      if feat e f =? BOT then []
      else f :: path_feats e (if feat e f =? ONE then o else z)
  end.

Lemma node_insts_keep : forall d t used e l, read_once d used t -> length e = d ->
  In l (node_insts e t) -> length l = d /\ forall i, in_range d i -> In i used -> feat l i = feat e i.
Proof.
  induction t as [i v|i f z IHz o IHo]; intros used e l R He H; simpl in H.
  - destruct H as [<-|[]]. auto.
  - destruct R as (Rf & Ru & Rz & Ro). destruct H as [<-|H]; auto. apply in_app_or in H as [H|H].
    + destruct (IHz _ _ _ Rz (eq_trans (set_feat_length _ _ _) He) H) as [H1 H2]. split; auto.
      intros j Hj Hu. rewrite H2 by (auto; simpl; auto). apply (feat_set_other d); auto. intros ->; contradiction.
    + destruct (IHo _ _ _ Ro (eq_trans (set_feat_length _ _ _) He) H) as [H1 H2]. split; auto.
      intros j Hj Hu. rewrite H2 by (auto; simpl; auto). apply (feat_set_other d); auto. intros ->; contradiction.
Qed.

Lemma node_insts_valid : forall d t used e l, read_once d used t -> valid_inst d e ->
  In l (node_insts e t) -> valid_inst d l.
Proof.
  induction t as [i v|i f z IHz o IHo]; intros used e l R He H; simpl in H.
  - destruct H as [<-|[]]. auto.
  - destruct R as (Rf & Ru & Rz & Ro). destruct H as [<-|H]; auto. apply in_app_or in H as [H|H]; [apply (IHz _ _ _ Rz) in H|apply (IHo _ _ _ Ro) in H]; auto;
      apply set_feat_valid; auto; unfold valid_feat; auto.
Qed.

Lemma node_insts_path : forall d t used e0 e, read_once d used t -> valid_inst d e0 -> valid_inst d e ->
  (forall i, in_range d i -> ~ In i used -> feat e0 i = BOT) ->
  (In e (node_insts e0 t) <->
   forall i, in_range d i -> feat e i = feat e0 i \/ (~ In i used /\ In i (path_feats e t))).
Proof.
  induction t as [i v|i f z IHz o IHo]; intros used e0 e R He0 He Hb.
  - simpl. split.
    + intros [<-|[]]. auto.
    + intros H. left. apply (inst_ext d); [apply He0|apply He|]. intros j Hj. destruct (H j Hj) as [->|[_ []]]; auto.
  - destruct R as (Rf & Ru & Rz & Ro). simpl.
    assert (PF : forall t' used e, read_once d used t' -> forall k, In k used -> ~ In k (path_feats e t')).
    { clear. induction t' as [i v|i f z IHz o IHo]; intros used e R k Hk; simpl; [tauto|].
      destruct R as (Rf & Ru & Rz & Ro). destruct (feat e f =? BOT); [intros []|].
      intros [<-|H]; [contradiction|].
      destruct (feat e f =? ONE); [exact (IHo _ e Ro k (or_intror Hk) H)|exact (IHz _ e Rz k (or_intror Hk) H)]. }
    assert (B : forall w, feat e f = w -> w <> BOT -> forall t', read_once d (f :: used) t' ->
       (forall i, in_range d i -> ~ In i (f :: used) -> feat (set_feat e0 f w) i = BOT) /\
       ((forall i, in_range d i -> feat e i = feat (set_feat e0 f w) i \/ (~ In i (f :: used) /\ In i (path_feats e t')))
        <-> (forall i, in_range d i -> feat e i = feat e0 i \/ (~ In i used /\ In i (f :: path_feats e t'))))).
    { intros w Hw Nw t' R'. split.
      - intros j Hj N. simpl in N. rewrite (feat_set_other d); auto.
      - split; intros H j Hj; specialize (H j Hj); (destruct (Z.eq_dec j f) as [->|N];
          [|rewrite (feat_set_other d) in *; auto; simpl in *; intuition]).
        + right. simpl; auto.
        + left. rewrite (feat_set_same d); auto. apply He0. }
    assert (K : forall w t' l, read_once d (f :: used) t' -> In l (node_insts (set_feat e0 f w) t') -> feat l f = w).
    { intros w t' l R' Hl. destruct (node_insts_keep _ _ _ _ _ R' (eq_trans (set_feat_length _ _ _) (proj1 He0)) Hl) as [_ H].
      rewrite H by (auto; simpl; auto). apply (feat_set_same d); auto. apply He0. }
    destruct (valid_feat_at d e f He) as [E|[E|E]]; rewrite E; simpl.
    + split.
      * intros [<-|H]; [auto|]. exfalso. apply in_app_or in H as [H|H]; apply K in H; auto; rewrite E in H; discriminate.
      * intros H. left. apply (inst_ext d); [apply He0|apply He|]. intros j Hj. destruct (H j Hj) as [->|[_ []]]; auto.
    + destruct (B ZERO E ltac:(discriminate) z Rz) as [B1 B2]. rewrite <- B2.
      rewrite <- (IHz (f :: used) (set_feat e0 f ZERO) e); auto.
      2:{ apply set_feat_valid; auto; unfold valid_feat; auto. }
      split; [|intros H; right; apply in_or_app; auto].
      intros [<-|H]; [rewrite (Hb f Rf Ru) in E; discriminate|].
      apply in_app_or in H as [H|H]; auto. apply K in H; auto. rewrite E in H; discriminate.
    + destruct (B ONE E ltac:(discriminate) o Ro) as [B1 B2]. rewrite <- B2.
      rewrite <- (IHo (f :: used) (set_feat e0 f ONE) e); auto.
      2:{ apply set_feat_valid; auto; unfold valid_feat; auto. }
      split; [|intros H; right; apply in_or_app; auto].
      intros [<-|H]; [rewrite (Hb f Rf Ru) in E; discriminate|].
      apply in_app_or in H as [H|H]; auto. apply K in H; auto. rewrite E in H; discriminate.
Qed.

(* Node read on the tree *)
Lemma is_node_path : forall d t e, read_once d [] t -> valid_inst d e ->
  (is_node d t e <-> forall i, in_range d i -> feat e i = BOT \/ In i (path_feats e t)).
Proof.
  intros d t e R He. unfold is_node, node_instances.
  rewrite (node_insts_path d t [] (all_bot d) e); auto; [|apply all_bot_valid|intros; apply all_bot_feat].
  setoid_rewrite all_bot_feat. simpl. split; intros H i Hi; specialize (H i Hi); tauto.
Qed.

(* ---- trees and lists of nodes ---- *)

Fixpoint every_split (P : Z -> Z -> Z -> Z -> Prop) (t : tree) : Prop :=
  match t with
  | Leaf _ _ => True
  | Split i f z o => P i f (pos z) (pos o) /\ every_split P z /\ every_split P o
  end.
Fixpoint every_leaf (Q : Z -> bool -> Prop) (t : tree) : Prop :=
  match t with
  | Leaf i b => Q i b
  | Split _ _ z o => every_leaf Q z /\ every_leaf Q o
  end.

Lemma every_split_iff : forall nodes t P, laid_out nodes t ->
  (every_split P t <->
   forall i n, In i (positions t) -> nth_error nodes (Z.to_nat i) = Some n -> IsLeaf n = false ->
     P i (nFeat n) (zChild n) (oChild n)).
Proof.
  intros nodes. induction t as [i b|i f z IHz o IHo]; intros P L; simpl in *.
  - split; auto. intros _ j n [<-|[]] Hn Hl. destruct L as (_ & m & Hm & Lm & _). congruence.
  - destruct L as (Hi & (n & Hn & Hl & Hf & Hz & Ho) & Lz & Lo).
    rewrite (IHz P Lz), (IHo P Lo). split.
    + intros (H & H1 & H2) j m [<-|Hj] Hm Hlm.
      * assert (m = n) by congruence. subst. rewrite Hz, Ho. exact H.
      * apply in_app_or in Hj as [Hj|Hj]; eauto.
    + intros H. split; [|split].
      * subst f. rewrite <- Hz, <- Ho. apply H; auto.
      * intros j m Hj. apply H. right. apply in_or_app; auto.
      * intros j m Hj. apply H. right. apply in_or_app; auto.
Qed.

Lemma every_leaf_iff : forall nodes t Q, laid_out nodes t ->
  (every_leaf Q t <->
   forall i n, In i (positions t) -> nth_error nodes (Z.to_nat i) = Some n -> IsLeaf n = true ->
     Q i (nValue n)).
Proof.
  intros nodes. induction t as [i b|i f z IHz o IHo]; intros Q L; simpl in *.
  - destruct L as (_ & m & Hm & Lm & Vm). split.
    + intros H j n [<-|[]] Hn Hl. assert (m = n) by congruence. subst; auto.
    + intros H. subst b. apply H; auto.
  - destruct L as (Hi & (n & Hn & Hl & Hf & Hz & Ho) & Lz & Lo).
    rewrite (IHz Q Lz), (IHo Q Lo). split.
    + intros (H1 & H2) j m [<-|Hj] Hm Hlm.
      * congruence.
      * apply in_app_or in Hj as [Hj|Hj]; eauto.
    + intros H. split; intros j m Hj; apply H; right; apply in_or_app; auto.
Qed.

Lemma laid_out_range : forall nodes t, laid_out nodes t ->
  Forall (fun i => 0 <= i < Z.of_nat (length nodes)) (positions t).
Proof.
  intros nodes. induction t as [i b|i f z IHz o IHo]; intros L; simpl in *.
  - destruct L as (Hi & n & Hn & _). repeat constructor; auto.
    assert (Z.to_nat i < length nodes)%nat by (apply nth_error_Some; congruence). lia.
  - destruct L as (Hi & (n & Hn & _) & Lz & Lo). constructor.
    + assert (Z.to_nat i < length nodes)%nat by (apply nth_error_Some; congruence). lia.
    + apply Forall_app; auto.
Qed.

(* Trees on which a feature may be tested more than once on a branch. *)
Fixpoint feats_in (d : nat) (t : tree) : Prop :=
  match t with
  | Leaf _ _ => True
  | Split _ f z o => in_range d f /\ feats_in d z /\ feats_in d o
  end.
Definition is_tree (m : model) (t : tree) : Prop :=
  (0 < Dim m)%nat /\ pos t = 0 /\ laid_out (Nodes m) t /\
  NoDup (positions t) /\ length (positions t) = length (Nodes m) /\ feats_in (Dim m) t.
Lemma read_once_feats : forall d t used, read_once d used t -> feats_in d t.
Proof. induction t as [i b|i f z IHz o IHo]; intros used R; simpl; auto. destruct R as (Rf & _ & Rz & Ro). eauto. Qed.
Lemma dtree_tree : forall m t, is_dtree m t -> is_tree m t.
Proof. intros m t (A & B & C & D & E & F). unfold is_tree. apply read_once_feats in F. auto 6. Qed.

(* every listed node is a node of the tree *)
Lemma positions_all : forall m t, is_tree m t -> forall i,
  0 <= i < Z.of_nat (length (Nodes m)) -> In i (positions t).
Proof.
  intros m t (_ & _ & L & ND & Len & _) i Hi.
  pose proof (laid_out_range _ _ L) as Rg.
  assert (ND' : NoDup (map Z.to_nat (positions t))).
  { clear -ND Rg. revert ND Rg. generalize (positions t) as l. induction l as [|a l IH]; intros ND Rg; simpl; constructor.
    - intros H. apply in_map_iff in H as (b & Hb & Hin). inversion ND; subst. inversion Rg; subst.
      rewrite Forall_forall in H4. specialize (H4 b Hin). assert (a = b) by lia. subst; contradiction.
    - inversion ND; inversion Rg; auto. }
  assert (Inc : incl (seq 0 (length (Nodes m))) (map Z.to_nat (positions t))).
  { apply NoDup_length_incl; auto.
    - rewrite seq_length, map_length. lia.
    - intros k Hk. apply in_map_iff in Hk as (j & <- & Hj). rewrite Forall_forall in Rg.
      specialize (Rg j Hj). apply in_seq. lia. }
  specialize (Inc (Z.to_nat i)). rewrite in_map_iff in Inc.
  destruct Inc as (j & Hj & Hin). { apply in_seq; lia. }
  rewrite Forall_forall in Rg. specialize (Rg j Hin). assert (i = j) by lia. subst; auto.
Qed.

Definition set_cond (r : Z -> bool) (gz go : FeatV -> bool) (e : inst) (i f z o : Z) : Prop :=
  r z = r i && gz (feat e f) /\ r o = r i && go (feat e f).

(* positions reached from the root when gz, go say which branches are open *)
Fixpoint reach (gz go : FeatV -> bool) (e : inst) (t : tree) : list Z :=
  match t with
  | Leaf i _ => [i]
  | Split i f z o =>
      i :: (if gz (feat e f) then reach gz go e z else [])
        ++ (if go (feat e f) then reach gz go e o else [])
  end.

Definition inb (i : Z) (l : list Z) : bool := existsb (Z.eqb i) l.
Lemma inb_In : forall i l, inb i l = true <-> In i l.
Proof.
  intros. unfold inb. rewrite existsb_exists. split.
  - intros (x & Hx & E). apply Z.eqb_eq in E. now subst.
  - intros H. exists i. split; auto. apply Z.eqb_refl.
Qed.
Lemma inb_app : forall i a b, inb i (a ++ b) = inb i a || inb i b.
Proof. intros. apply existsb_app. Qed.

Lemma reach_positions : forall gz go e t i, In i (reach gz go e t) -> In i (positions t).
Proof.
  induction t as [j b|j f z IHz o IHo]; simpl; intros i H; auto.
  destruct H as [<-|H]; auto. right. apply in_or_app. apply in_app_or in H as [H|H].
  - destruct (gz (feat e f)); [auto|contradiction].
  - destruct (go (feat e f)); [auto|contradiction].
Qed.
Lemma inb_reach_out : forall gz go e t i, ~ In i (positions t) -> inb i (reach gz go e t) = false.
Proof.
  intros. apply not_true_iff_false. rewrite inb_In. intros H1. apply reach_positions in H1. contradiction.
Qed.
Lemma inb_reach_root : forall gz go e t, inb (pos t) (reach gz go e t) = true.
Proof. intros. apply inb_In. destruct t; simpl; auto. Qed.

Lemma pos_in : forall t, In (pos t) (positions t).
Proof. destruct t; simpl; auto. Qed.

Lemma NoDup_split : forall i (a b : list Z), NoDup (i :: a ++ b) ->
  ~ In i a /\ ~ In i b /\ NoDup a /\ NoDup b /\ (forall x, In x a -> ~ In x b).
Proof.
  intros i a b H. inversion H as [|? ? N ND]; subst. rewrite in_app_iff in N.
  split; [tauto|]. split; [tauto|]. clear H N. induction a as [|x a IH]; simpl in *.
  - repeat split; auto. constructor.
  - inversion ND as [|? ? N ND']; subst. rewrite in_app_iff in N. destruct (IH ND') as (A & B & C).
    split; [constructor; tauto|]. split; auto. intros y [<-|Hy]; [tauto|auto].
Qed.

(* the reachability clauses pin r down to the reached positions *)
Lemma reach_exact : forall gz go e t r, NoDup (positions t) ->
  (every_split (set_cond r gz go e) t <->
   forall i, In i (positions t) -> r i = r (pos t) && inb i (reach gz go e t)).
Proof.
  intros gz go e. induction t as [j b|j f z IHz o IHo]; intros r ND.
  - simpl. split; auto. intros _ i [<-|[]]. unfold inb. simpl. now rewrite Z.eqb_refl, andb_true_r.
  - simpl in ND. destruct (NoDup_split _ _ _ ND) as (Nz & No & NDz & NDo & Dj).
    cbn [every_split pos positions reach]. rewrite (IHz r NDz), (IHo r NDo). clear IHz IHo.
    assert (Iz : forall i, In i (positions z) -> inb i (j :: (if gz (feat e f) then reach gz go e z else []) ++ (if go (feat e f) then reach gz go e o else []))
       = gz (feat e f) && inb i (reach gz go e z)).
    { intros i Hi. change (inb i (j :: ?l)) with ((i =? j) || inb i l). simpl. fold (inb i ((if gz (feat e f) then reach gz go e z else []) ++ (if go (feat e f) then reach gz go e o else []))).
      assert (E : (i =? j) = false) by (apply Z.eqb_neq; intros ->; contradiction). rewrite E. simpl.
      rewrite inb_app. destruct (gz (feat e f)), (go (feat e f)); simpl; rewrite ?orb_false_r; auto;
        rewrite (inb_reach_out _ _ _ o i) by (apply Dj; auto); now rewrite ?orb_false_r. }
    assert (Io : forall i, In i (positions o) -> inb i (j :: (if gz (feat e f) then reach gz go e z else []) ++ (if go (feat e f) then reach gz go e o else []))
       = go (feat e f) && inb i (reach gz go e o)).
    { intros i Hi. simpl. fold (inb i ((if gz (feat e f) then reach gz go e z else []) ++ (if go (feat e f) then reach gz go e o else []))).
      assert (E : (i =? j) = false) by (apply Z.eqb_neq; intros ->; contradiction). rewrite E. simpl.
      rewrite inb_app. destruct (gz (feat e f)), (go (feat e f)); simpl; rewrite ?orb_false_r; auto;
        rewrite (inb_reach_out _ _ _ z i) by (intros X; apply (Dj i X); auto); auto. }
    split.
    + intros ((C1 & C2) & H1 & H2) i [<-|Hi].
      * simpl. now rewrite Z.eqb_refl, andb_true_r.
      * apply in_app_or in Hi as [Hi|Hi].
        -- rewrite Iz, (H1 i Hi), C1 by auto. now rewrite andb_assoc.
        -- rewrite Io, (H2 i Hi), C2 by auto. now rewrite andb_assoc.
    + intros H.
      assert (Hz : r (pos z) = r j && gz (feat e f)).
      { rewrite (H (pos z)) by (right; apply in_or_app; left; apply pos_in).
        rewrite Iz by apply pos_in. now rewrite inb_reach_root, andb_true_r. }
      assert (Ho : r (pos o) = r j && go (feat e f)).
      { rewrite (H (pos o)) by (right; apply in_or_app; right; apply pos_in).
        rewrite Io by apply pos_in. now rewrite inb_reach_root, andb_true_r. }
      split; [split; auto|]. split; intros i Hi.
      * rewrite (H i) by (right; apply in_or_app; auto). rewrite Iz, Hz by auto. now rewrite andb_assoc.
      * rewrite (H i) by (right; apply in_or_app; auto). rewrite Io, Ho by auto. now rewrite andb_assoc.
Qed.

Definition gzN (x : FeatV) : bool := x =? ZERO.
Definition goN (x : FeatV) : bool := x =? ONE.
Definition gzA (x : FeatV) : bool := (x =? ZERO) || (x =? BOT).
Definition goA (x : FeatV) : bool := (x =? ONE) || (x =? BOT).
Definition reachN := reach gzN goN.
Definition reachA := reach gzA goA.

(* leafs of the other class are not reached *)
Lemma reachA_allc : forall d b e t, valid_inst d e -> NoDup (positions t) ->
  (every_leaf (fun i v => eqb v b = false -> inb i (reachA e t) = false) t <-> allc b e t = true).
Proof.
  intros d b e t He.
  assert (G : forall t R, NoDup (positions t) ->
     (forall i, In i (positions t) -> inb i R = inb i (reachA e t)) ->
     (every_leaf (fun i v => eqb v b = false -> inb i R = false) t <-> allc b e t = true)).
  2:{ intros ND. apply G; auto. }
  clear t. induction t as [j v|j f z IHz o IHo]; intros R ND H.
  - simpl. rewrite H by (simpl; auto). unfold inb. simpl. rewrite Z.eqb_refl. simpl.
    destruct (eqb v b); split; auto; try discriminate. intros X. specialize (X eq_refl). discriminate.
  - simpl in ND. destruct (NoDup_split _ _ _ ND) as (Nz & No & NDz & NDo & Dj).
    cbn [every_leaf allc].
    assert (Tz : forall c, (forall i, In i (positions c) -> inb i R = false) ->
               every_leaf (fun i v => eqb v b = false -> inb i R = false) c).
    { clear. induction c as [j v|j f z IHz o IHo]; simpl; intros H; auto.
      split; [apply IHz|apply IHo]; intros i Hi; apply H; right; apply in_or_app; auto. }
    assert (Rz : forall i, In i (positions z) -> inb i R = gzA (feat e f) && inb i (reachA e z)).
    { intros i Hi. rewrite H by (simpl; right; apply in_or_app; auto).
      unfold reachA. simpl.
      assert (E : (i =? j) = false) by (apply Z.eqb_neq; intros ->; contradiction). rewrite E. simpl.
      fold (inb i ((if gzA (feat e f) then reach gzA goA e z else []) ++ (if goA (feat e f) then reach gzA goA e o else []))).
      rewrite inb_app. destruct (gzA (feat e f)), (goA (feat e f)); simpl; rewrite ?orb_false_r; auto;
        rewrite (inb_reach_out _ _ _ o i) by (apply Dj; auto); now rewrite ?orb_false_r. }
    assert (Ro : forall i, In i (positions o) -> inb i R = goA (feat e f) && inb i (reachA e o)).
    { intros i Hi. rewrite H by (simpl; right; apply in_or_app; auto).
      unfold reachA. simpl.
      assert (E : (i =? j) = false) by (apply Z.eqb_neq; intros ->; contradiction). rewrite E. simpl.
      fold (inb i ((if gzA (feat e f) then reach gzA goA e z else []) ++ (if goA (feat e f) then reach gzA goA e o else []))).
      rewrite inb_app. destruct (gzA (feat e f)), (goA (feat e f)); simpl; rewrite ?orb_false_r; auto;
        rewrite (inb_reach_out _ _ _ z i) by (intros X; apply (Dj i X); auto); auto. }
    destruct (valid_feat_at d e f He) as [E|[E|E]]; rewrite E in *; cbn in Rz, Ro |- *.
    + rewrite andb_true_iff, <- (IHz R NDz), <- (IHo R NDo) by auto. reflexivity.
    + rewrite <- (IHz R NDz) by auto. split; [tauto|]. intros X; split; auto.
    + rewrite <- (IHo R NDo) by auto. split; [tauto|]. intros X; split; auto.
Qed.

(* inner nodes with their feature and children *)
Fixpoint splits (t : tree) : list (Z * Z * Z * Z) :=
  match t with
  | Leaf _ _ => []
  | Split i f z o => (i, f, pos z, pos o) :: splits z ++ splits o
  end.

Lemma splits_iff : forall nodes t i f z o, laid_out nodes t ->
  (In (i, f, z, o) (splits t) <->
   In i (positions t) /\ exists n, nth_error nodes (Z.to_nat i) = Some n /\ IsLeaf n = false /\
     nFeat n = f /\ zChild n = z /\ oChild n = o).
Proof.
  intros nodes. induction t as [j b|j g z IHz o IHo]; intros i f z' o' L; simpl in *.
  - split; [intros []|]. intros ([<-|[]] & n & Hn & Hl & _). destruct L as (_ & m & Hm & Lm & _). congruence.
  - destruct L as (Hi & (n & Hn & Hl & Hf & Hz & Ho) & Lz & Lo). rewrite in_app_iff, (IHz _ _ _ _ Lz), (IHo _ _ _ _ Lo).
    rewrite in_app_iff. split.
    + intros [[= <- <- <- <-]|[(H & X)|(H & X)]]; auto. split; auto. exists n. auto.
    + intros ([<-|[H|H]] & m & Hm & Lm & Fm & Zm & Om).
      * left. assert (m = n) by congruence. subst. congruence.
      * right. left. split; auto. exists m; auto.
      * right. right. split; auto. exists m; auto.
Qed.

(* inner nodes reached along defined features *)
Lemma reachN_path : forall d e t k, valid_inst d e -> NoDup (positions t) -> in_range d k -> feat e k <> BOT ->
  ((exists i z o, In i (reachN e t) /\ In (i, k, z, o) (splits t))
   <-> In k (path_feats e t)).
Proof.
  intros d e t k He ND Hk Nk.
  assert (SP : forall t i f z o, In (i, f, z, o) (splits t) -> In i (positions t)).
  { clear. induction t as [j v|j g z IHz o IHo]; simpl; intros i f z' o' H; [contradiction|].
    destruct H as [[= -> -> _ _]|H]; auto. right. apply in_or_app. apply in_app_or in H as [H|H]; eauto. }
  revert ND. induction t as [j v|j f z IHz o IHo]; intros ND.
  - simpl. split; [intros (i & z & o & _ & [])|intros []].
  - simpl in ND. destruct (NoDup_split _ _ _ ND) as (Nz & No & NDz & NDo & Dj).
    unfold reachN. cbn [reach path_feats splits]. fold (reachN e z). fold (reachN e o).
    destruct (valid_feat_at d e f He) as [E|[E|E]]; rewrite E; cbn.
    + split; [|intros []]. intros (i & z' & o' & [<-|[]] & [H|H]).
      * injection H as -> _ _. contradiction.
      * exfalso. apply in_app_or in H as [H|H]; apply SP in H; contradiction.
    + rewrite app_nil_r. rewrite <- (IHz NDz). split.
      * intros (i & z' & o' & [<-|Hi] & [H|H]).
        -- injection H as -> _ _. auto.
        -- exfalso. apply in_app_or in H as [H|H]; apply SP in H; contradiction.
        -- injection H as <- <- _ _. auto.
        -- apply in_app_or in H as [H|H]; [right; exists i, z', o'; auto|].
           exfalso. apply SP in H. apply reach_positions in Hi. exact (Dj i Hi H).
      * intros [->|(i & z' & o' & Hi & H)].
        -- exists j, (pos z), (pos o). auto.
        -- exists i, z', o'. split; auto. right. apply in_or_app. auto.
    + rewrite <- (IHo NDo). split.
      * intros (i & z' & o' & [<-|Hi] & [H|H]).
        -- injection H as -> _ _. auto.
        -- exfalso. apply in_app_or in H as [H|H]; apply SP in H; contradiction.
        -- injection H as <- <- _ _. auto.
        -- apply in_app_or in H as [H|H]; [|right; exists i, z', o'; auto].
           exfalso. apply SP in H. apply reach_positions in Hi. exact (Dj i H Hi).
      * intros [->|(i & z' & o' & Hi & H)].
        -- exists j, (pos z), (pos o). auto.
        -- exists i, z', o'. split; auto. right. apply in_or_app. auto.
Qed.

(* ---- slices in range ---- *)

Lemma sget_ok : forall A (l : list A) i a, 0 <= i -> nth_error l (Z.to_nat i) = Some a -> sget l i = Ok a.
Proof. intros A l i a Hi H. unfold sget. destruct (Z.ltb_spec i 0); [lia|]. now rewrite H. Qed.
Lemma sset_ok : forall A (l : list A) i a, 0 <= i < Z.of_nat (length l) ->
  sset l i a = Ok (list_set l (Z.to_nat i) a).
Proof.
  intros A l i a Hi. unfold sset. destruct (Z.ltb_spec i 0); [lia|].
  destruct (Nat.ltb_spec (Z.to_nat i) (length l)); auto. lia.
Qed.
Lemma sget_feat : forall d e i, length e = d -> in_range d i -> sget e i = Ok (feat e i).
Proof.
  intros d e i He Hi. unfold in_range in Hi. apply sget_ok; [lia|].
  unfold feat. apply nth_error_nth'. lia.
Qed.
