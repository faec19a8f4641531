(* The walks over the nodes of a decision tree: the iterator of ForAllGuarded
   yields the node instances in preorder, leafsAsConsts the leaf instances. *)
From Verif Require Import GoBase Cnf Query Walk Atoms Spec Sym AtomBase AtomSimple Counter TreeLemmas AtomTree WalkConst.
Local Open Scope Z_scope.
Local Open Scope list_scope.

(* ---- valid nodes ---- *)

Lemma validateNodes_ok : forall m t, is_dtree m t -> validateNodes (Nodes m) (Dim m) (length (Nodes m)) = None.
Proof.
  intros m t DT.
  assert (G : forall n, In n (Nodes m) -> validateNode n (Dim m) (length (Nodes m)) = None).
  { intros n Hn. apply In_nth_error in Hn as (k & Hk). unfold validateNode. destruct (IsLeaf n) eqn:E; auto.
    assert (Hk' : nth_error (Nodes m) (Z.to_nat (Z.of_nat k)) = Some n) by now rewrite Nat2Z.id.
    pose proof (inner_feat m t (dtree_tree m t DT) (Z.of_nat k) n (Nat2Z.is_nonneg k) Hk' E) as Hf.
    rewrite (ltb_out (nFeat n)) by exact Hf.
    pose proof (nodes_in m t (dtree_tree m t DT) (Z.of_nat k) n (Nat2Z.is_nonneg k) Hk') as Hin.
    destruct DT as (_ & _ & L & _).
    assert (C : forall t', laid_out (Nodes m) t' -> In (Z.of_nat k) (positions t') ->
       0 <= zChild n < Z.of_nat (length (Nodes m)) /\ 0 <= oChild n < Z.of_nat (length (Nodes m))).
    { clear - Hk' E. induction t' as [i b|i f z IHz o IHo]; intros L H.
      - destruct L as (_ & n' & Hn' & Hl & _). simpl in H. destruct H as [->|[]]. congruence.
      - destruct L as (Hi & (n' & Hn' & Hl & _ & Hz & Ho) & Lz & Lo). simpl in H. destruct H as [->|H].
        + assert (n' = n) by congruence. subst n'. rewrite Hz, Ho. split; now apply laid_out_pos.
        + apply in_app_or in H as [H|H]; auto. }
    destruct (C t L Hin) as [Cz Co]. rewrite (ltb_out (zChild n)), (ltb_out (oChild n)) by auto. reflexivity. }
  revert G. generalize (length (Nodes m)) as nl. intros nl. induction (Nodes m) as [|n l IH]; intros G; simpl; auto.
  rewrite G by (simpl; auto). apply IH. intros; apply G; simpl; auto.
Qed.

Definition w0 : walkInfo := mkWalk 0 false.
Definition wat (w : list walkInfo) (x : Z) : walkInfo := nth (Z.to_nat x) w w0.

Lemma wat_set_same : forall w x a, 0 <= x < Z.of_nat (length w) -> wat (list_set w (Z.to_nat x) a) x = a.
Proof. intros. unfold wat. apply list_set_same. lia. Qed.
Lemma wat_set_other : forall w x y a, 0 <= x -> 0 <= y -> x <> y -> wat (list_set w (Z.to_nat x) a) y = wat w y.
Proof. intros. unfold wat. apply list_set_other. lia. Qed.
Lemma sget_wat : forall w x, 0 <= x < Z.of_nat (length w) -> sget w x = Ok (wat w x).
Proof. intros w x H. apply sget_ok; [lia|]. unfold wat. apply nth_error_nth'. lia. Qed.

(* ---- the iterator ---- *)

Inductive runs : iter -> list (list FeatV) -> nat -> iter -> Prop :=
| r_refl : forall i, runs i [] 0 i
| r_silent : forall i i1 l k i', it_step i = Ok (inl i1) -> runs i1 l k i' -> runs i l (S k) i'
| r_yield : forall i i1 l k i', it_step i = Ok (inr (true, i1)) -> runs i1 l k i' -> runs i (it_t i1 :: l) (S k) i'.

Lemma runs_app : forall i l k i1, runs i l k i1 -> forall l' k' i2, runs i1 l' k' i2 -> runs i (l ++ l') (k + k') i2.
Proof.
  induction 1; intros l' k' i2 H2; simpl; auto.
  - eapply r_silent; eauto.
  - eapply r_yield; eauto.
Qed.

Lemma it_step_nodes : forall i r, it_step i = Ok r ->
  it_nodes (match r with inl i' => i' | inr (_, i') => i' end) = it_nodes i.
Proof.
  intros i r H. unfold it_step, it_backup, it_descend in H.
  repeat match type of H with
  | rbind ?x _ = Ok _ => destruct x eqn:?; cbn [rbind] in H; try discriminate
  | (if ?b then _ else _) = Ok _ => destruct b
  | Ok _ = Ok _ => injection H as <-
  end; reflexivity.
Qed.

(* the vector after undoing a branch *)
Lemma set_undo : forall d e f v, in_range d f -> length e = d -> feat e f = BOT ->
  list_set (set_feat e f v) (Z.to_nat f) BOT = e.
Proof.
  intros d e f v Hf He Hb. unfold set_feat. rewrite list_set_set. apply list_set_id.
  unfold in_range in Hf. unfold feat in Hb. rewrite <- Hb. apply nth_error_nth'. lia.
Qed.

Definition unseen (w : list walkInfo) (t : tree) : Prop := forall x, In x (positions t) -> wvisited (wat w x) = false.
Definition seen (w : list walkInfo) (t : tree) : Prop := forall x, In x (positions t) -> wvisited (wat w x) = true.
Definition frame (w w' : list walkInfo) (t : tree) : Prop :=
  length w' = length w /\ (forall x, 0 <= x -> ~ In x (positions t) -> wat w' x = wat w x) /\
  wprev (wat w' (pos t)) = wprev (wat w (pos t)).

Lemma traverse : forall d nodes t used e w,
  laid_out nodes t -> NoDup (positions t) -> read_once d used t -> length e = d ->
  (forall k, in_range d k -> ~ In k used -> feat e k = BOT) ->
  length w = length nodes -> unseen w t -> ~ In 0 (below t) ->
  exists w' k, runs (mkIter e nodes w (pos t)) (node_insts e t) k (mkIter e nodes w' (pos t)) /\
    frame w w' t /\ seen w' t /\ (k + 2 <= 3 * length (positions t))%nat.
Proof.
  intros d nodes. induction t as [i b|i f z IHz o IHo]; intros used e w L ND R He Hb Hw Hu H0;
    destruct (laid_out_node _ _ L) as (n & Hn & Hp & Hc); pose proof (laid_out_pos _ _ L) as Hr; simpl pos in *.
  - exists (list_set w (Z.to_nat i) (mkWalk (wprev (wat w i)) true)), 1%nat. split; [|split; [|split]].
    + eapply (r_yield _ (mkIter e nodes (list_set w (Z.to_nat i) (mkWalk (wprev (wat w i)) true)) i)); [|constructor].
      unfold it_step. cbn [it_walk it_cp it_t it_nodes]. rewrite sget_wat by lia. cbn [rbind].
      rewrite (Hu i) by (simpl; auto). rewrite sset_ok by lia. reflexivity.
    + split; [apply list_set_length|]. split; simpl.
      * intros x Hx Nx. apply wat_set_other; auto.
      * rewrite wat_set_same by lia. reflexivity.
    + intros x [<-|[]]. rewrite wat_set_same by lia. reflexivity.
    + simpl. lia.
  - destruct Hc as (Hl & Ff & Fz & Fo). destruct R as (Rf & Ru & Rz & Ro). destruct L as (Li & Ln & Lz & Lo).
    simpl in ND. destruct (NoDup_split _ _ _ ND) as (Nz0 & No0 & NDz & NDo & Dj).
    pose proof (laid_out_pos _ _ Lz) as Hz. pose proof (laid_out_pos _ _ Lo) as Ho.
    assert (Rng : forall x t', laid_out nodes t' -> In x (positions t') -> 0 <= x).
    { intros x t' L' Hx. pose proof (laid_out_range _ _ L') as G. rewrite Forall_forall in G. apply G in Hx. lia. }
    assert (Hfe : feat e f = BOT) by (apply Hb; auto).
    simpl in H0. rewrite in_app_iff in H0.
    assert (Z0 : ~ In 0 (below z)) by (intros H; apply below_positions in H; tauto).
    assert (O0 : ~ In 0 (below o)) by (intros H; apply below_positions in H; tauto).
    assert (Pz0 : pos z <> 0) by (intros E; apply H0; left; rewrite <- E; apply pos_in).
    assert (Po0 : pos o <> 0) by (intros E; apply H0; right; rewrite <- E; apply pos_in).
    (* mark *)
    set (w1 := list_set w (Z.to_nat i) (mkWalk (wprev (wat w i)) true)).
    assert (L1 : length w1 = length nodes) by (unfold w1; now rewrite list_set_length).
    assert (W1 : wat w1 i = mkWalk (wprev (wat w i)) true) by (apply wat_set_same; lia).
    assert (O1 : forall x, 0 <= x -> x <> i -> wat w1 x = wat w x) by (intros; apply wat_set_other; auto).
    (* enter the zero child *)
    set (w2 := list_set w1 (Z.to_nat (pos z)) (mkWalk i false)).
    assert (L2 : length w2 = length nodes) by (unfold w2; now rewrite list_set_length).
    assert (W2 : wat w2 (pos z) = mkWalk i false) by (apply wat_set_same; lia).
    assert (O2 : forall x, 0 <= x -> x <> pos z -> wat w2 x = wat w1 x) by (intros; apply wat_set_other; auto; lia).
    assert (Uz : unseen w2 z).
    { intros x Hx. destruct (Z.eq_dec x (pos z)) as [->|N]; [now rewrite W2|]. assert (0 <= x) by eauto.
      rewrite O2, O1 by (auto; intros ->; contradiction). apply Hu. simpl. right. apply in_or_app; auto. }
    assert (Bz : forall k, in_range d k -> ~ In k (f :: used) -> feat (set_feat e f ZERO) k = BOT).
    { intros k Hk Nk. simpl in Nk. rewrite (feat_set_other d) by (auto; lia). apply Hb; auto. }
    destruct (IHz (f :: used) (set_feat e f ZERO) w2 Lz NDz Rz (eq_trans (set_feat_length _ _ _) He) Bz L2 Uz Z0)
      as (w3 & k3 & R3 & (F3a & F3b & F3c) & S3 & K3).
    assert (Iz : i <> pos z) by (intros E; apply Nz0; rewrite E; apply pos_in).
    assert (Io : i <> pos o) by (intros E; apply No0; rewrite E; apply pos_in).
    assert (W3 : wat w3 i = mkWalk (wprev (wat w i)) true).
    { rewrite F3b, O2 by (auto; lia). exact W1. }
    assert (V3 : wat w3 (pos o) = wat w (pos o)).
    { assert (Np : ~ In (pos o) (positions z)) by (intros H; apply (Dj _ H), pos_in).
      rewrite F3b, O2, O1 by (auto; try lia; intros E; apply Np; rewrite E; apply pos_in). reflexivity. }
    assert (Vo : wvisited (wat w (pos o)) = false).
    { apply Hu. simpl. right. apply in_or_app. right. apply pos_in. }
    (* enter the one child *)
    set (w4 := list_set w3 (Z.to_nat (pos o)) (mkWalk i false)).
    assert (L3 : length w3 = length nodes) by congruence.
    assert (L4 : length w4 = length nodes) by (unfold w4; now rewrite list_set_length).
    assert (W4 : wat w4 (pos o) = mkWalk i false) by (apply wat_set_same; lia).
    assert (O4 : forall x, 0 <= x -> x <> pos o -> wat w4 x = wat w3 x) by (intros; apply wat_set_other; auto; lia).
    assert (Uo : unseen w4 o).
    { intros x Hx. destruct (Z.eq_dec x (pos o)) as [->|N]; [now rewrite W4|]. assert (0 <= x) by eauto.
      assert (Nx : ~ In x (positions z)) by (intros H'; apply (Dj _ H'); auto).
      rewrite O4, F3b, O2, O1 by (auto; intros ->; try contradiction; apply Nx, pos_in).
      apply Hu. simpl. right. apply in_or_app; auto. }
    assert (Bo : forall k, in_range d k -> ~ In k (f :: used) -> feat (set_feat e f ONE) k = BOT).
    { intros k Hk Nk. simpl in Nk. rewrite (feat_set_other d) by (auto; lia). apply Hb; auto. }
    destruct (IHo (f :: used) (set_feat e f ONE) w4 Lo NDo Ro (eq_trans (set_feat_length _ _ _) He) Bo L4 Uo O0)
      as (w5 & k5 & R5 & (F5a & F5b & F5c) & S5 & K5).
    assert (L5 : length w5 = length nodes) by congruence.
    assert (W5 : wat w5 i = mkWalk (wprev (wat w i)) true).
    { rewrite F5b, O4 by (auto; lia). exact W3. }
    unfold in_range in Rf.
    (* the steps *)
    assert (ST1 : it_step (mkIter e nodes w i) = Ok (inr (true, mkIter e nodes w1 i))).
    { unfold it_step. cbn [it_walk it_cp it_t it_nodes]. rewrite sget_wat by lia. cbn [rbind].
      rewrite (Hu i) by (simpl; auto). rewrite sset_ok by lia. reflexivity. }
    assert (Gn : sget nodes i = Ok n) by (apply sget_ok; auto).
    assert (ST2 : it_step (mkIter e nodes w1 i) = Ok (inl (mkIter (set_feat e f ZERO) nodes w2 (pos z)))).
    { unfold it_step. cbn [it_walk it_cp it_t it_nodes]. rewrite sget_wat by lia. cbn [rbind]. rewrite W1. cbn [wvisited].
      rewrite Gn. cbn [rbind]. rewrite Hl, Fz. rewrite sget_wat by lia. cbn [rbind]. rewrite O1 by (auto; lia).
      rewrite (Hu (pos z)) by (simpl; right; apply in_or_app; left; apply pos_in). cbn [negb].
      unfold it_descend. cbn [it_walk it_cp it_t it_nodes]. rewrite Ff, sset_ok by lia. cbn [rbind].
      rewrite sget_wat by lia. cbn [rbind]. rewrite O1 by (auto; lia).
      rewrite (Hu (pos z)) by (simpl; right; apply in_or_app; left; apply pos_in).
      rewrite sset_ok by lia. reflexivity. }
    assert (BK : forall w' c v, length w' = length nodes -> wat w' c = mkWalk i true -> 0 <= c < Z.of_nat (length nodes) ->
        c <> i -> c <> 0 ->
        it_backup (mkIter (set_feat e f v) nodes w' c) = Ok (inl (mkIter e nodes w' i))).
    { intros w' c v L' W' Hc' Nc N0. unfold it_backup. cbn [it_walk it_cp it_t it_nodes].
      destruct (Z.eqb_spec c 0); [contradiction|]. rewrite sget_wat by lia. cbn [rbind]. rewrite W'. cbn [wprev].
      rewrite Gn. cbn [rbind]. rewrite Ff, sset_ok by (rewrite set_feat_length; lia). cbn [rbind].
      rewrite (set_undo d) by (auto; exact Rf). reflexivity. }
    (* leaving a finished child *)
    assert (LV : forall t' w' v, laid_out nodes t' -> In (pos t') (positions z ++ positions o) -> length w' = length nodes ->
        seen w' t' -> wprev (wat w' (pos t')) = i -> pos t' <> 0 ->
        it_step (mkIter (set_feat e f v) nodes w' (pos t')) = Ok (inl (mkIter e nodes w' i))).
    { intros t' w' v L' Hin' Lw' S' P' N0.
      assert (A : wat w' (pos t') = mkWalk i true).
      { specialize (S' (pos t') (pos_in t')). destruct (wat w' (pos t')) as [p q]. simpl in *. congruence. }
      pose proof (laid_out_pos _ _ L') as Hp'.
      assert (Nc : pos t' <> i).
      { intros E. rewrite E in Hin'. apply in_app_or in Hin' as [?|?]; contradiction. }
      destruct (laid_out_node _ _ L') as (n' & Hn' & _ & Hc').
      unfold it_step. cbn [it_walk it_cp it_t it_nodes]. rewrite sget_wat by lia. cbn [rbind]. rewrite A. cbn [wvisited].
      rewrite (sget_ok _ _ _ _ (proj1 Hp') Hn'). cbn [rbind].
      destruct t' as [j b'|j g z' o'].
      - destruct Hc' as [Hc' _]. rewrite Hc'. apply BK; auto.
      - destruct Hc' as (Hc' & _ & Fz' & Fo'). destruct L' as (_ & _ & Lz' & Lo'). rewrite Hc', Fz', Fo'.
        pose proof (laid_out_pos _ _ Lz') as Hz'. pose proof (laid_out_pos _ _ Lo') as Ho'.
        rewrite sget_wat by lia. cbn [rbind].
        rewrite (S' (pos z')) by (simpl; right; apply in_or_app; left; apply pos_in). cbn [negb].
        rewrite sget_wat by lia. cbn [rbind].
        rewrite (S' (pos o')) by (simpl; right; apply in_or_app; right; apply pos_in). cbn [negb].
        apply BK; auto. }
    assert (ST4 : it_step (mkIter e nodes w3 i) = Ok (inl (mkIter (set_feat e f ONE) nodes w4 (pos o)))).
    { unfold it_step. cbn [it_walk it_cp it_t it_nodes]. rewrite sget_wat by lia. cbn [rbind]. rewrite W3. cbn [wvisited].
      rewrite Gn. cbn [rbind]. rewrite Hl, Fz, Fo. rewrite sget_wat by lia. cbn [rbind].
      rewrite (S3 (pos z)) by apply pos_in. cbn [negb].
      rewrite sget_wat by lia. cbn [rbind]. rewrite V3, Vo. cbn [negb].
      unfold it_descend. cbn [it_walk it_cp it_t it_nodes]. rewrite Ff, sset_ok by lia. cbn [rbind].
      rewrite sget_wat by lia. cbn [rbind]. rewrite V3, Vo.
      rewrite sset_ok by lia. reflexivity. }
    exists w5, (S (S (k3 + S (S (k5 + 1)))))%nat. split; [|split; [|split]].
    + cbn [node_insts]. apply (r_yield _ (mkIter e nodes w1 i)); [exact ST1|].
      eapply r_silent; [exact ST2|]. eapply runs_app; [exact R3|].
      eapply r_silent.
      { apply LV; auto; [apply in_or_app; left; apply pos_in|]. rewrite F3c, W2. reflexivity. }
      eapply r_silent; [exact ST4|].
      rewrite <- (app_nil_r (node_insts _ o)). eapply runs_app; [exact R5|].
      eapply r_silent; [|constructor].
      apply LV; auto; [apply in_or_app; right; apply pos_in|]. rewrite F5c, W4. reflexivity.
    + split; [congruence|]. split; simpl.
      * intros x Hx Nx. rewrite in_app_iff in Nx.
        assert (x <> pos z) by (intros ->; apply Nx; right; left; apply pos_in).
        assert (x <> pos o) by (intros ->; apply Nx; right; right; apply pos_in).
        rewrite F5b, O4, F3b, O2, O1 by tauto || auto. reflexivity.
      * rewrite W5. reflexivity.
    + intros x [<-|Hx]; [now rewrite W5|]. apply in_app_or in Hx as [Hx|Hx]; [|now apply S5].
      assert (0 <= x) by eauto.
      assert (Nx : ~ In x (positions o)) by (apply Dj; auto).
      rewrite F5b, O4 by (auto; intros ->; apply Nx, pos_in). now apply S3.
    + simpl. rewrite app_length. lia.
Qed.

Lemma it_next_runs : forall fuel i l k i', runs i l k i' -> (k < fuel)%nat ->
  it_step i' = Ok (inr (false, i')) ->
  match l with
  | [] => it_next fuel i = Ok (false, i')
  | x :: l' => exists i1 k1, it_next fuel i = Ok (true, i1) /\ it_t i1 = x /\ runs i1 l' k1 i' /\ (k1 < k)%nat /\
                             it_nodes i1 = it_nodes i
  end.
Proof.
  intros fuel i l k i' H. revert fuel. induction H as [i|i i1 l k i' E H IH|i i1 l k i' E H IH]; intros fuel Hf HE.
  - destruct fuel; [lia|]. simpl. rewrite HE. reflexivity.
  - destruct fuel as [|fuel]; [lia|]. specialize (IH fuel). simpl. rewrite E. cbn [rbind].
    destruct l as [|x l].
    + apply IH; auto. lia.
    + destruct IH as (i2 & k2 & A & B & C & D & F); auto; [lia|]. exists i2, k2. repeat split; auto.
      rewrite F. apply (it_step_nodes _ _ E).
  - destruct fuel as [|fuel]; [lia|]. simpl. rewrite E. cbn [rbind]. exists i1, k. repeat split; auto.
    apply (it_step_nodes _ _ E).
Qed.

(* A decision tree's nodes are visited in preorder. *)
Lemma iter_runs : forall m t, is_dtree m t ->
  exists it it' k, newNodeAsValuesIter (Dim m) (Nodes m) = Ok it /\ it_nodes it = Nodes m /\
    runs it (node_instances (Dim m) t) k it' /\ (k < next_fuel (Nodes m))%nat /\
    it_step it' = Ok (inr (false, it')).
Proof.
  intros m t DT. pose proof (validateNodes_ok m t DT) as V. pose proof DT as (Hd & Hp & L & ND & Len & R).
  unfold newNodeAsValuesIter. rewrite V. pose proof (laid_out_pos _ _ L) as Hr.
  destruct (Nodes m) as [|n0 l0] eqn:EN; [simpl in Hr; lia|]. rewrite <- EN in *.
  set (w := repeat (mkWalk 0 false) (length (Nodes m))).
  assert (W : forall x, wat w x = w0) by (intros x; unfold wat, w; apply nth_repeat).
  destruct (traverse (Dim m) (Nodes m) t [] (all_bot (Dim m)) w L ND R) as (w' & k & Rn & (F1 & F2 & F3) & Sn & K).
  - apply repeat_length.
  - intros. apply all_bot_feat; auto.
  - unfold w. apply repeat_length.
  - intros x _. now rewrite W.
  - rewrite <- Hp. destruct t as [i b|i f z o]; simpl; auto. simpl in ND. now inversion ND.
  - rewrite Hp in Rn. eexists _, _, k. split; [reflexivity|]. split; [reflexivity|]. split; [exact Rn|].
    split; [unfold next_fuel; lia|].
    assert (Lw : length w' = length (Nodes m)) by (rewrite F1; apply repeat_length).
    unfold it_step. cbn [it_walk it_cp it_t it_nodes]. rewrite sget_wat by lia. cbn [rbind].
    rewrite (Sn 0) by (rewrite <- Hp; apply pos_in). destruct (laid_out_node _ _ L) as (n & Hn & _ & Hc).
    rewrite Hp in Hn. rewrite (sget_ok _ _ 0 _ (Z.le_refl 0) Hn). cbn [rbind].
    destruct t as [i b|i f z o].
    + destruct Hc as [Hc _]. rewrite Hc. reflexivity.
    + destruct Hc as (Hc & _ & Fz & Fo). destruct L as (_ & _ & Lz & Lo). rewrite Hc, Fz, Fo.
      pose proof (laid_out_pos _ _ Lz). pose proof (laid_out_pos _ _ Lo).
      rewrite sget_wat by lia. cbn [rbind].
      rewrite (Sn (pos z)) by (simpl; right; apply in_or_app; left; apply pos_in). cbn [negb].
      rewrite sget_wat by lia. cbn [rbind].
      rewrite (Sn (pos o)) by (simpl; right; apply in_or_app; right; apply pos_in). cbn [negb].
      reflexivity.
Qed.

(* ---- leafsAsConsts ---- *)

Definition pos_leafs (e : inst) (t : tree) : list QConst :=
  map (fun p => mkQConst EmptyString (fst p)) (filter snd (leaf_insts e t)).
Definition neg_leafs (e : inst) (t : tree) : list QConst :=
  map (fun p => mkQConst EmptyString (fst p)) (filter (fun p => negb (snd p)) (leaf_insts e t)).
Lemma pos_leafs_split : forall e i f z o,
  pos_leafs e (Split i f z o) = pos_leafs (set_feat e f ZERO) z ++ pos_leafs (set_feat e f ONE) o.
Proof. intros. unfold pos_leafs. simpl. now rewrite filter_app, map_app. Qed.
Lemma neg_leafs_split : forall e i f z o,
  neg_leafs e (Split i f z o) = neg_leafs (set_feat e f ZERO) z ++ neg_leafs (set_feat e f ONE) o.
Proof. intros. unfold neg_leafs. simpl. now rewrite filter_app, map_app. Qed.

Inductive lruns (nodes : list node) : lwalk -> nat -> lwalk -> Prop :=
| l_refl : forall s, lruns nodes s 0 s
| l_step : forall s s1 k s', lw_step nodes s = Ok (inl s1) -> lruns nodes s1 k s' -> lruns nodes s (S k) s'.
Lemma lruns_app : forall nodes s k s1, lruns nodes s k s1 -> forall k' s2, lruns nodes s1 k' s2 -> lruns nodes s (k + k') s2.
Proof. induction 1; intros k' s2 H2; simpl; auto. eapply l_step; eauto. Qed.
Lemma lw_loop_runs : forall nodes s k s', lruns nodes s k s' -> forall fuel s'', (k < fuel)%nat ->
  lw_step nodes s' = Ok (inr s'') -> lw_loop fuel nodes s = Ok s''.
Proof.
  induction 1 as [s|s s1 k s' E H IH]; intros fuel s'' Hf HE; destruct fuel as [|fuel]; try lia; simpl.
  - rewrite HE. reflexivity.
  - rewrite E. cbn [rbind]. apply IH; auto. lia.
Qed.

Lemma ltraverse : forall d nodes t used e w P N,
  laid_out nodes t -> NoDup (positions t) -> read_once d used t -> length e = d ->
  (forall k, in_range d k -> ~ In k used -> feat e k = BOT) ->
  length w = length nodes -> unseen w t -> ~ In 0 (below t) ->
  exists w' k, lruns nodes (mkLwalk e w (pos t) P N) k
      (mkLwalk e w' (pos t) (P ++ pos_leafs e t) (N ++ neg_leafs e t)) /\
    frame w w' t /\ seen w' t /\ (k + 2 <= 3 * length (positions t))%nat.
Proof.
  intros d nodes. induction t as [i b|i f z IHz o IHo]; intros used e w P N L ND R He Hb Hw Hu H0;
    destruct (laid_out_node _ _ L) as (n & Hn & Hp & Hc); pose proof (laid_out_pos _ _ L) as Hr; simpl pos in *.
  - exists (list_set w (Z.to_nat i) (mkWalk (wprev (wat w i)) true)), 1%nat. split; [|split; [|split]].
    + destruct Hc as [Hl Hv]. eapply l_step; [|constructor].
      unfold lw_step. cbn [lw_walk lw_cp lw_cv lw_pos lw_neg]. rewrite sget_wat by lia. cbn [rbind].
      rewrite (Hu i) by (simpl; auto). rewrite sset_ok by lia. cbn [rbind]. rewrite (sget_ok _ _ _ _ Hp Hn). cbn [rbind].
      rewrite Hl, Hv. unfold pos_leafs, neg_leafs. simpl. destruct b; simpl; now rewrite app_nil_r.
    + split; [apply list_set_length|]. split; simpl.
      * intros x Hx Nx. apply wat_set_other; auto.
      * rewrite wat_set_same by lia. reflexivity.
    + intros x [<-|[]]. rewrite wat_set_same by lia. reflexivity.
    + simpl. lia.
  - destruct Hc as (Hl & Ff & Fz & Fo). destruct R as (Rf & Ru & Rz & Ro). destruct L as (Li & Ln & Lz & Lo).
    simpl in ND. destruct (NoDup_split _ _ _ ND) as (Nz0 & No0 & NDz & NDo & Dj).
    pose proof (laid_out_pos _ _ Lz) as Hz. pose proof (laid_out_pos _ _ Lo) as Ho.
    assert (Rng : forall x t', laid_out nodes t' -> In x (positions t') -> 0 <= x).
    { intros x t' L' Hx. pose proof (laid_out_range _ _ L') as G. rewrite Forall_forall in G. apply G in Hx. lia. }
    assert (Hfe : feat e f = BOT) by (apply Hb; auto).
    simpl in H0. rewrite in_app_iff in H0.
    assert (Z0 : ~ In 0 (below z)) by (intros H; apply below_positions in H; tauto).
    assert (O0 : ~ In 0 (below o)) by (intros H; apply below_positions in H; tauto).
    assert (Pz0 : pos z <> 0) by (intros E; apply H0; left; rewrite <- E; apply pos_in).
    assert (Po0 : pos o <> 0) by (intros E; apply H0; right; rewrite <- E; apply pos_in).
    (* mark *)
    set (w1 := list_set w (Z.to_nat i) (mkWalk (wprev (wat w i)) true)).
    assert (L1 : length w1 = length nodes) by (unfold w1; now rewrite list_set_length).
    assert (W1 : wat w1 i = mkWalk (wprev (wat w i)) true) by (apply wat_set_same; lia).
    assert (O1 : forall x, 0 <= x -> x <> i -> wat w1 x = wat w x) by (intros; apply wat_set_other; auto).
    (* enter the zero child *)
    set (w2 := list_set w1 (Z.to_nat (pos z)) (mkWalk i false)).
    assert (L2 : length w2 = length nodes) by (unfold w2; now rewrite list_set_length).
    assert (W2 : wat w2 (pos z) = mkWalk i false) by (apply wat_set_same; lia).
    assert (O2 : forall x, 0 <= x -> x <> pos z -> wat w2 x = wat w1 x) by (intros; apply wat_set_other; auto; lia).
    assert (Uz : unseen w2 z).
    { intros x Hx. destruct (Z.eq_dec x (pos z)) as [->|Ne]; [now rewrite W2|]. assert (0 <= x) by eauto.
      rewrite O2, O1 by (auto; intros ->; contradiction). apply Hu. simpl. right. apply in_or_app; auto. }
    assert (Bz : forall k, in_range d k -> ~ In k (f :: used) -> feat (set_feat e f ZERO) k = BOT).
    { intros k Hk Nk. simpl in Nk. rewrite (feat_set_other d) by (auto; lia). apply Hb; auto. }
    destruct (IHz (f :: used) (set_feat e f ZERO) w2 P N Lz NDz Rz (eq_trans (set_feat_length _ _ _) He) Bz L2 Uz Z0)
      as (w3 & k3 & R3 & (F3a & F3b & F3c) & S3 & K3).
    assert (Iz : i <> pos z) by (intros E; apply Nz0; rewrite E; apply pos_in).
    assert (Io : i <> pos o) by (intros E; apply No0; rewrite E; apply pos_in).
    assert (W3 : wat w3 i = mkWalk (wprev (wat w i)) true).
    { rewrite F3b, O2 by (auto; lia). exact W1. }
    assert (V3 : wat w3 (pos o) = wat w (pos o)).
    { assert (Np : ~ In (pos o) (positions z)) by (intros H; apply (Dj _ H), pos_in).
      rewrite F3b, O2, O1 by (auto; try lia; intros E; apply Np; rewrite E; apply pos_in). reflexivity. }
    assert (Vo : wvisited (wat w (pos o)) = false).
    { apply Hu. simpl. right. apply in_or_app. right. apply pos_in. }
    (* enter the one child *)
    set (w4 := list_set w3 (Z.to_nat (pos o)) (mkWalk i false)).
    assert (L3 : length w3 = length nodes) by congruence.
    assert (L4 : length w4 = length nodes) by (unfold w4; now rewrite list_set_length).
    assert (W4 : wat w4 (pos o) = mkWalk i false) by (apply wat_set_same; lia).
    assert (O4 : forall x, 0 <= x -> x <> pos o -> wat w4 x = wat w3 x) by (intros; apply wat_set_other; auto; lia).
    assert (Uo : unseen w4 o).
    { intros x Hx. destruct (Z.eq_dec x (pos o)) as [->|Ne]; [now rewrite W4|]. assert (0 <= x) by eauto.
      assert (Nx : ~ In x (positions z)) by (intros H'; apply (Dj _ H'); auto).
      rewrite O4, F3b, O2, O1 by (auto; intros ->; try contradiction; apply Nx, pos_in).
      apply Hu. simpl. right. apply in_or_app; auto. }
    assert (Bo : forall k, in_range d k -> ~ In k (f :: used) -> feat (set_feat e f ONE) k = BOT).
    { intros k Hk Nk. simpl in Nk. rewrite (feat_set_other d) by (auto; lia). apply Hb; auto. }
    destruct (IHo (f :: used) (set_feat e f ONE) w4 (P ++ pos_leafs (set_feat e f ZERO) z) (N ++ neg_leafs (set_feat e f ZERO) z) Lo NDo Ro (eq_trans (set_feat_length _ _ _) He) Bo L4 Uo O0)
      as (w5 & k5 & R5 & (F5a & F5b & F5c) & S5 & K5).
    assert (L5 : length w5 = length nodes) by congruence.
    assert (W5 : wat w5 i = mkWalk (wprev (wat w i)) true).
    { rewrite F5b, O4 by (auto; lia). exact W3. }
    unfold in_range in Rf.
    (* the steps *)
    assert (Gn : sget nodes i = Ok n) by (apply sget_ok; auto).
    assert (ST1 : lw_step nodes (mkLwalk e w i P N) = Ok (inl (mkLwalk e w1 i P N))).
    { unfold lw_step. cbn [lw_walk lw_cp lw_cv lw_pos lw_neg]. rewrite sget_wat by lia. cbn [rbind].
      rewrite (Hu i) by (simpl; auto). rewrite sset_ok by lia. cbn [rbind]. rewrite Gn. cbn [rbind]. rewrite Hl. reflexivity. }
    assert (ST2 : lw_step nodes (mkLwalk e w1 i P N) = Ok (inl (mkLwalk (set_feat e f ZERO) w2 (pos z) P N))).
    { unfold lw_step. cbn [lw_walk lw_cp lw_cv lw_pos lw_neg]. rewrite sget_wat by lia. cbn [rbind]. rewrite W1. cbn [wvisited].
      rewrite Gn. cbn [rbind]. rewrite Hl, Fz. rewrite sget_wat by lia. cbn [rbind]. rewrite O1 by (auto; lia).
      rewrite (Hu (pos z)) by (simpl; right; apply in_or_app; left; apply pos_in). cbn [negb].
      unfold lw_descend. cbn [lw_walk lw_cp lw_cv lw_pos lw_neg]. rewrite Ff, sset_ok by lia. cbn [rbind].
      rewrite sget_wat by lia. cbn [rbind]. rewrite O1 by (auto; lia).
      rewrite (Hu (pos z)) by (simpl; right; apply in_or_app; left; apply pos_in).
      rewrite sset_ok by lia. reflexivity. }
    assert (BK : forall P N w' c v, length w' = length nodes -> wat w' c = mkWalk i true -> 0 <= c < Z.of_nat (length nodes) ->
        c <> i -> c <> 0 ->
        lw_backup nodes (mkLwalk (set_feat e f v) w' c P N) = Ok (inl (mkLwalk e w' i P N))).
    { intros P' N' w' c v L' W' Hc' Nc N0. unfold lw_backup. cbn [lw_walk lw_cp lw_cv lw_pos lw_neg].
      destruct (Z.eqb_spec c 0); [contradiction|]. rewrite sget_wat by lia. cbn [rbind]. rewrite W'. cbn [wprev].
      rewrite Gn. cbn [rbind]. rewrite Ff, sset_ok by (rewrite set_feat_length; lia). cbn [rbind].
      rewrite (set_undo d) by (auto; exact Rf). reflexivity. }
    (* leaving a finished child *)
    assert (LV : forall P N t' w' v, laid_out nodes t' -> In (pos t') (positions z ++ positions o) -> length w' = length nodes ->
        seen w' t' -> wprev (wat w' (pos t')) = i -> pos t' <> 0 ->
        lw_step nodes (mkLwalk (set_feat e f v) w' (pos t') P N) = Ok (inl (mkLwalk e w' i P N))).
    { intros P' N' t' w' v L' Hin' Lw' S' Pr N0.
      assert (A : wat w' (pos t') = mkWalk i true).
      { specialize (S' (pos t') (pos_in t')). destruct (wat w' (pos t')) as [p q]. simpl in *. congruence. }
      pose proof (laid_out_pos _ _ L') as Hp'.
      assert (Nc : pos t' <> i).
      { intros E. rewrite E in Hin'. apply in_app_or in Hin' as [?|?]; contradiction. }
      destruct (laid_out_node _ _ L') as (n' & Hn' & _ & Hc').
      unfold lw_step. cbn [lw_walk lw_cp lw_cv lw_pos lw_neg]. rewrite sget_wat by lia. cbn [rbind]. rewrite A. cbn [wvisited].
      rewrite (sget_ok _ _ _ _ (proj1 Hp') Hn'). cbn [rbind].
      destruct t' as [j b'|j g z' o'].
      - destruct Hc' as [Hc' _]. rewrite Hc'. apply BK; auto.
      - destruct Hc' as (Hc' & _ & Fz' & Fo'). destruct L' as (_ & _ & Lz' & Lo'). rewrite Hc', Fz', Fo'.
        pose proof (laid_out_pos _ _ Lz') as Hz'. pose proof (laid_out_pos _ _ Lo') as Ho'.
        rewrite sget_wat by lia. cbn [rbind].
        rewrite (S' (pos z')) by (simpl; right; apply in_or_app; left; apply pos_in). cbn [negb].
        rewrite sget_wat by lia. cbn [rbind].
        rewrite (S' (pos o')) by (simpl; right; apply in_or_app; right; apply pos_in). cbn [negb].
        apply BK; auto. }
    assert (ST4 : forall P N, lw_step nodes (mkLwalk e w3 i P N) = Ok (inl (mkLwalk (set_feat e f ONE) w4 (pos o) P N))).
    { intros P' N'. unfold lw_step. cbn [lw_walk lw_cp lw_cv lw_pos lw_neg]. rewrite sget_wat by lia. cbn [rbind]. rewrite W3. cbn [wvisited].
      rewrite Gn. cbn [rbind]. rewrite Hl, Fz, Fo. rewrite sget_wat by lia. cbn [rbind].
      rewrite (S3 (pos z)) by apply pos_in. cbn [negb].
      rewrite sget_wat by lia. cbn [rbind]. rewrite V3, Vo. cbn [negb].
      unfold lw_descend. cbn [lw_walk lw_cp lw_cv lw_pos lw_neg]. rewrite Ff, sset_ok by lia. cbn [rbind].
      rewrite sget_wat by lia. cbn [rbind]. rewrite V3, Vo.
      rewrite sset_ok by lia. reflexivity. }
    exists w5, (S (S (k3 + S (S (k5 + 1)))))%nat. split; [|split; [|split]].
    + rewrite pos_leafs_split, neg_leafs_split, !app_assoc. eapply l_step; [exact ST1|].
      eapply l_step; [exact ST2|]. eapply lruns_app; [exact R3|].
      eapply l_step.
      { apply LV; auto; [apply in_or_app; left; apply pos_in|]. rewrite F3c, W2. reflexivity. }
      eapply l_step; [apply ST4|].
      eapply lruns_app; [exact R5|].
      eapply l_step; [|constructor].
      apply LV; auto; [apply in_or_app; right; apply pos_in|]. rewrite F5c, W4. reflexivity.
    + split; [congruence|]. split; simpl.
      * intros x Hx Nx. rewrite in_app_iff in Nx.
        assert (x <> pos z) by (intros ->; apply Nx; right; left; apply pos_in).
        assert (x <> pos o) by (intros ->; apply Nx; right; right; apply pos_in).
        rewrite F5b, O4, F3b, O2, O1 by tauto || auto. reflexivity.
      * rewrite W5. reflexivity.
    + intros x [<-|Hx]; [now rewrite W5|]. apply in_app_or in Hx as [Hx|Hx]; [|now apply S5].
      assert (0 <= x) by eauto.
      assert (Nx : ~ In x (positions o)) by (apply Dj; auto).
      rewrite F5b, O4 by (auto; intros ->; apply Nx, pos_in). now apply S3.
    + simpl. rewrite app_length. lia.
Qed.

Lemma leafsAsConsts_ok : forall m t, is_dtree m t ->
  leafsAsConsts (Dim m) (Nodes m) = Ok (pos_leafs (all_bot (Dim m)) t, neg_leafs (all_bot (Dim m)) t).
Proof.
  intros m t DT. pose proof (validateNodes_ok m t DT) as V. pose proof DT as (Hd & Hp & L & ND & Len & R).
  unfold leafsAsConsts. rewrite V. pose proof (laid_out_pos _ _ L) as Hr.
  set (w := repeat (mkWalk 0 false) (length (Nodes m))).
  assert (W : forall x, wat w x = w0) by (intros x; unfold wat, w; apply nth_repeat).
  destruct (ltraverse (Dim m) (Nodes m) t [] (all_bot (Dim m)) w [] [] L ND R) as (w' & k & Rn & (F1 & F2 & F3) & Sn & K).
  - apply repeat_length.
  - intros. apply all_bot_feat; auto.
  - unfold w. apply repeat_length.
  - intros x _. now rewrite W.
  - rewrite <- Hp. destruct t as [i b|i f z o]; simpl; auto. simpl in ND. now inversion ND.
  - rewrite Hp in Rn.
    rewrite (lw_loop_runs _ _ _ _ Rn _ (mkLwalk (all_bot (Dim m)) w' 0 (pos_leafs (all_bot (Dim m)) t) (neg_leafs (all_bot (Dim m)) t))).
    { reflexivity. }
    { unfold leafs_fuel. lia. }
    assert (Lw : length w' = length (Nodes m)) by (rewrite F1; apply repeat_length).
    unfold lw_step. cbn [lw_walk lw_cp lw_cv lw_pos lw_neg]. rewrite sget_wat by lia. cbn [rbind].
    rewrite (Sn 0) by (rewrite <- Hp; apply pos_in). destruct (laid_out_node _ _ L) as (n & Hn & _ & Hc).
    rewrite Hp in Hn. rewrite (sget_ok _ _ 0 _ (Z.le_refl 0) Hn). cbn [rbind].
    destruct t as [i b|i f z o].
    + destruct Hc as [Hc _]. rewrite Hc. reflexivity.
    + destruct Hc as (Hc & _ & Fz & Fo). destruct L as (_ & _ & Lz & Lo). rewrite Hc, Fz, Fo.
      pose proof (laid_out_pos _ _ Lz). pose proof (laid_out_pos _ _ Lo).
      rewrite sget_wat by lia. cbn [rbind].
      rewrite (Sn (pos z)) by (simpl; right; apply in_or_app; left; apply pos_in). cbn [negb].
      rewrite sget_wat by lia. cbn [rbind].
      rewrite (Sn (pos o)) by (simpl; right; apply in_or_app; right; apply pos_in). cbn [negb].
      reflexivity.
Qed.
