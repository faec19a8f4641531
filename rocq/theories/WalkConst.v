(* The constant versions of IsNode and AllComp on decision trees. *)
From Verif Require Import GoBase Cnf Query Walk Atoms Spec Sym AtomBase AtomSimple Counter TreeLemmas AtomTree.
Local Open Scope Z_scope.
Local Open Scope list_scope.

Lemma laid_out_node : forall nodes t, laid_out nodes t -> exists n, nth_error nodes (Z.to_nat (pos t)) = Some n /\
  0 <= pos t /\
  match t with
  | Leaf _ b => IsLeaf n = true /\ nValue n = b
  | Split _ f z o => IsLeaf n = false /\ nFeat n = f /\ zChild n = pos z /\ oChild n = pos o
  end.
Proof.
  intros nodes [i b|i f z o] L; simpl in *.
  - destruct L as (Hi & n & H & H1 & H2). exists n. tauto.
  - destruct L as (Hi & (n & H & H1 & H2 & H3 & H4) & _). exists n. tauto.
Qed.

Lemma laid_out_pos : forall nodes t, laid_out nodes t -> 0 <= pos t < Z.of_nat (length nodes).
Proof.
  intros nodes t L. pose proof (laid_out_range _ _ L) as R. rewrite Forall_forall in R. apply R. apply pos_in.
Qed.

Lemma ltb_out : forall i n, 0 <= i < n -> (i <? 0) || (n <=? i) = false.
Proof.
  intros. destruct (Z.ltb_spec i 0); [lia|]. destruct (Z.leb_spec n i); [lia|]. reflexivity.
Qed.

Lemma isnode_loop_ok : forall d nodes val, valid_inst d val ->
  forall t used fuel vr n, laid_out nodes t -> read_once d used t ->
  nth_error nodes (Z.to_nat (pos t)) = Some n -> (length (positions t) <= fuel)%nat -> length vr = d ->
  exists vr', isnode_loop fuel d nodes val n vr = Ok vr' /\ length vr' = d /\
    forall k, in_range d k -> nth (Z.to_nat k) vr' 0 = if inb k (path_feats val t) then 1 else nth (Z.to_nat k) vr 0.
Proof.
  intros d nodes val Hv. induction t as [i b|i f z IHz o IHo]; intros used fuel vr n L R Hn Hf Hl;
    destruct (laid_out_node _ _ L) as (n' & Hn' & Hp & Hc); assert (n' = n) by congruence; subst n'; clear Hn';
    destruct fuel as [|fuel]; simpl in Hf; try lia; cbn [isnode_loop].
  - destruct Hc as [Hc _]. unfold isnode_step. rewrite Hc. simpl. exists vr. auto.
  - destruct Hc as (Hc & Ff & Fz & Fo). destruct R as (Rf & Ru & Rz & Ro). destruct L as (Li & Ln & Lz & Lo).
    unfold isnode_step. rewrite Hc, Ff, Fz, Fo. rewrite (ltb_out f (Z.of_nat d)) by apply Rf.
    rewrite (sget_feat d val f) by (auto; apply Hv). cbn [rbind path_feats].
    rewrite (ltb_out (pos z)) by (now apply laid_out_pos). rewrite (ltb_out (pos o)) by (now apply laid_out_pos).
    destruct (laid_out_node _ _ Lz) as (nz & Hnz & Pz & _). destruct (laid_out_node _ _ Lo) as (no & Hno & Po & _).
    rewrite app_length in Hf. unfold in_range in Rf.
    destruct (valid_feat_at d val f Hv) as [E|[E|E]]; rewrite E; cbn - [isnode_loop inb].
    + exists vr. auto.
    + rewrite sset_ok by lia. cbn - [isnode_loop inb]. rewrite (sget_ok _ _ _ _ Pz Hnz). cbn - [isnode_loop inb].
      destruct (IHz (f :: used) fuel (list_set vr (Z.to_nat f) 1) nz) as (vr' & E1 & E2 & E3); auto; try lia.
      { now rewrite list_set_length. }
      exists vr'. split; auto. split; auto. intros k Hk. rewrite E3 by auto. unfold inb. simpl. fold (inb k (path_feats val z)).
      destruct (Z.eqb_spec k f) as [->|N]; simpl.
      * rewrite list_set_same by lia. destruct (inb f (path_feats val z)); auto.
      * rewrite list_set_other by (unfold in_range in Hk; lia). reflexivity.
    + rewrite sset_ok by lia. cbn - [isnode_loop inb]. rewrite (sget_ok _ _ _ _ Po Hno). cbn - [isnode_loop inb].
      destruct (IHo (f :: used) fuel (list_set vr (Z.to_nat f) 1) no) as (vr' & E1 & E2 & E3); auto; try lia.
      { now rewrite list_set_length. }
      exists vr'. split; auto. split; auto. intros k Hk. rewrite E3 by auto. unfold inb. simpl. fold (inb k (path_feats val o)).
      destruct (Z.eqb_spec k f) as [->|N]; simpl.
      * rewrite list_set_same by lia. destruct (inb f (path_feats val o)); auto.
      * rewrite list_set_other by (unfold in_range in Hk; lia). reflexivity.
Qed.

Lemma fold_add : forall l a, fold_left Z.add l a = a + fold_left Z.add l 0.
Proof.
  induction l as [|x l IH]; intros a; simpl; [lia|]. rewrite IH, (IH x). lia.
Qed.
Lemma allFeatsVisited_iff : forall vr, Forall (fun x => 0 <= x <= 1) vr ->
  (allFeatsVisited vr = true <-> Forall (fun x => x = 1) vr).
Proof.
  intros vr H. unfold allFeatsVisited. rewrite Z.eqb_eq.
  assert (B : forall l, Forall (fun x => 0 <= x <= 1) l -> 0 <= fold_left Z.add l 0 <= Z.of_nat (length l)).
  { induction 1 as [|x l Hx Hl IH]; simpl; [lia|]. rewrite fold_add. lia. }
  induction H as [|x l Hx Hl IH]; simpl.
  - split; auto.
  - rewrite fold_add. specialize (B l Hl). split.
    + intros E. constructor; [lia|]. apply IH. lia.
    + intros E. inversion E; subst. apply IH in H2. lia.
Qed.

Lemma isnode_const_ok : forall m t c, is_dtree m t -> valid_inst (Dim m) (cVal c) ->
  exists b, isnode_const (Dim m) (Nodes m) c = Ok b /\ (b = true <-> is_node (Dim m) t (cVal c)).
Proof.
  intros m t c DT Hv. pose proof DT as (Hd & Hp & L & ND & Len & R).
  unfold isnode_const. destruct (Nodes m) as [|root rest] eqn:EN.
  { exfalso. apply laid_out_pos in L. simpl in L. lia. }
  rewrite <- EN in *.
  assert (Hroot : nth_error (Nodes m) (Z.to_nat (pos t)) = Some root) by (rewrite Hp, EN; reflexivity).
  assert (Hlen : length (newVisitRecord c) = Dim m) by (unfold newVisitRecord; rewrite map_length; apply Hv).
  destruct (isnode_loop_ok (Dim m) (Nodes m) (cVal c) Hv t [] (isnode_fuel (Nodes m)) (newVisitRecord c) root)
    as (vr & E1 & E2 & E3); auto.
  { unfold isnode_fuel. lia. }
  rewrite E1. cbn [rbind]. eexists. split; [reflexivity|].
  assert (NV : forall k, in_range (Dim m) k -> nth (Z.to_nat k) (newVisitRecord c) 0 = if feat (cVal c) k =? BOT then 1 else 0).
  { intros k Hk. unfold newVisitRecord. rewrite (nth_indep _ 0 (if BOT =? BOT then 1 else 0)).
    - now rewrite (map_nth (fun ft => if ft =? BOT then 1 else 0)).
    - fold (newVisitRecord c). rewrite Hlen. unfold in_range in Hk. lia. }
  assert (ALL : forall P : Z -> Prop, Forall P vr <-> forall k, in_range (Dim m) k -> P (nth (Z.to_nat k) vr 0)).
  { intros P. rewrite Forall_forall. split.
    - intros H k Hk. apply H. apply nth_In. unfold in_range in Hk. lia.
    - intros H x Hx. apply (In_nth _ _ 0) in Hx as (j & Hj & <-). specialize (H (Z.of_nat j)). rewrite Nat2Z.id in H.
      apply H. unfold in_range. lia. }
  rewrite allFeatsVisited_iff.
  2:{ rewrite ALL. intros k Hk. rewrite E3, NV by auto. destruct (inb k (path_feats (cVal c) t)), (feat (cVal c) k =? BOT); lia. }
  rewrite ALL, (is_node_path _ _ _ R Hv).
  split; intros H k Hk; specialize (H k Hk).
  - rewrite E3, NV in H by auto. rewrite <- inb_In. destruct (inb k (path_feats (cVal c) t)); auto.
    destruct (Z.eqb_spec (feat (cVal c) k) BOT); auto. discriminate.
  - rewrite E3, NV by auto. rewrite <- inb_In in H. destruct (inb k (path_feats (cVal c) t)); auto.
    destruct (Z.eqb_spec (feat (cVal c) k) BOT); auto. destruct H; [contradiction|discriminate].
Qed.

(* ---- allcomp.Const ---- *)

Definition below (t : tree) : list Z := match t with Leaf _ _ => [] | Split _ _ z o => positions z ++ positions o end.
Definition ac_total (ts : list tree) : nat := length (concat (map positions ts)).

Lemma ac_push_ok : forall nodes t stack visited, laid_out nodes t -> ~ In (pos t) visited ->
  exists n, nth_error nodes (Z.to_nat (pos t)) = Some n /\
    ac_push nodes (stack, visited) (pos t) = Ok (n :: stack, pos t :: visited).
Proof.
  intros nodes t stack visited L N. destruct (laid_out_node _ _ L) as (n & Hn & Hp & _).
  exists n. split; auto. unfold ac_push.
  assert (E : existsb (Z.eqb (pos t)) visited = false).
  { apply not_true_iff_false. intros H. apply existsb_exists in H as (x & Hx & E). apply Z.eqb_eq in E. subst; contradiction. }
  rewrite E, (sget_ok _ _ _ _ Hp Hn). reflexivity.
Qed.

Lemma below_positions : forall t x, In x (below t) -> In x (positions t).
Proof. intros [i b|i f z o] x H; simpl in *; auto. Qed.

Lemma ac_loop_ok : forall d nodes val b, valid_inst d val ->
  forall fuel ts stack visited,
  Forall2 (fun n t => nth_error nodes (Z.to_nat (pos t)) = Some n) stack ts ->
  Forall (laid_out nodes) ts -> Forall (fun t => exists used, read_once d used t) ts ->
  NoDup (concat (map positions ts)) ->
  (forall x t, In x visited -> In t ts -> ~ In x (below t)) ->
  (ac_total ts < fuel)%nat ->
  ac_loop fuel d nodes val b (stack, visited) = Ok (forallb (allc b val) ts).
Proof.
  intros d nodes val b Hv. induction fuel as [|fuel IH]; intros ts stack visited HS HL HR ND HV Hf; [lia|].
  cbn [ac_loop]. destruct HS as [|n t stack ts Hn HS]; [reflexivity|].
  inversion HL as [|? ? L HL']; subst. inversion HR as [|? ? [used R] HR']; subst.
  destruct (laid_out_node _ _ L) as (n' & Hn' & Hp & Hc). assert (n' = n) by congruence. subst n'.
  unfold ac_total in Hf. simpl in Hf, ND. rewrite app_length in Hf.
  assert (HV' : forall x t', In x visited -> In t' ts -> ~ In x (below t')) by (intros; eapply HV; simpl; eauto).
  destruct t as [i v|i f z o].
  - destruct Hc as (Hl & Hv'). rewrite Hl, Hv'. cbn [forallb allc].
    destruct (eqb v b); [|reflexivity]. simpl in Hf. apply IH; auto; try (unfold ac_total; lia).
    simpl in ND. inversion ND; auto.
  - destruct Hc as (Hl & Ff & Fz & Fo). rewrite Hl, Ff, Fz, Fo.
    destruct R as (Rf & Ru & Rz & Ro). destruct L as (Li & Ln & Lz & Lo).
    rewrite (ltb_out f (Z.of_nat d)) by apply Rf. rewrite (sget_feat d val f) by (auto; apply Hv).
    cbn [rbind forallb allc]. simpl in Hf. rewrite app_length in Hf.
    assert (Dz : forall x, In x visited -> ~ In x (positions z) /\ ~ In x (positions o)).
    { intros x Hx. specialize (HV x (Split i f z o) Hx (or_introl eq_refl)). simpl in HV. rewrite in_app_iff in HV. tauto. }
    simpl in ND. rewrite <- app_assoc in ND. apply NoDup_cons_iff in ND as [NI ND1].
    assert (NDz : NoDup (positions z ++ concat (map positions ts)) /\ NoDup (positions o ++ concat (map positions ts))
       /\ NoDup (positions o ++ positions z ++ concat (map positions ts))
       /\ (forall x, In x (positions z) -> ~ In x (positions o) /\ ~ In x (concat (map positions ts)))
       /\ (forall x, In x (positions o) -> ~ In x (concat (map positions ts)))).
    { destruct (NoDup_split (-1) (positions z) (positions o ++ concat (map positions ts))) as (_ & _ & N1 & N2 & N3).
      { constructor; auto. intros Hm. assert (X : -1 < 0) by lia.
        rewrite !in_app_iff in Hm.
        assert (G : forall t', laid_out nodes t' -> ~ In (-1) (positions t')).
        { intros t' L' Hin. pose proof (laid_out_range _ _ L') as Rg. rewrite Forall_forall in Rg. specialize (Rg _ Hin). lia. }
        destruct Hm as [Hm|[Hm|Hm]]; [exact (G z Lz Hm)|exact (G o Lo Hm)|].
        apply in_concat in Hm as (l & Hl1 & Hl2). apply in_map_iff in Hl1 as (t' & <- & Ht'). rewrite Forall_forall in HL'.
        exact (G t' (HL' _ Ht') Hl2). }
      assert (N4 : NoDup (positions z ++ concat (map positions ts))).
      { apply (NoDup_remove_1 _ _ (-1)) in ND || idtac.
        clear -N1 N2 N3. induction (positions z) as [|x l IHl]; simpl.
        - clear -N2. induction (positions o) as [|y l' IHl']; simpl in *; auto. inversion N2; auto.
        - inversion N1; subst. constructor.
          + rewrite in_app_iff. intros [?|Hc]; [contradiction|]. apply (N3 x (or_introl eq_refl)). apply in_or_app; auto.
          + apply IHl; auto. intros y Hy. apply N3. simpl; auto. }
      assert (N5 : forall x, In x (positions z) -> ~ In x (positions o) /\ ~ In x (concat (map positions ts))).
      { intros x Hx. specialize (N3 x Hx). rewrite in_app_iff in N3. tauto. }
      assert (N6 : forall x, In x (positions o) -> ~ In x (concat (map positions ts))).
      { clear -N2. induction (positions o) as [|y l' IHl']; simpl in *; [tauto|]. inversion N2; subst.
        rewrite in_app_iff in H1. intros x [<-|Hx]; [tauto|]. apply IHl'; auto. }
      split; auto. split; auto. split; auto. clear -N2 N4 N5 N6.
      assert (No : NoDup (positions o)).
      { clear -N2. induction (positions o) as [|y l' IHl']; simpl in *; [constructor|]. inversion N2; subst.
        rewrite in_app_iff in H1. constructor; [tauto|auto]. }
      clear N2. induction (positions o) as [|y l' IHl']; simpl in *; auto. inversion No; subst. constructor.
      - rewrite !in_app_iff. intros [H|[H|H]]; [contradiction| |].
        + destruct (N5 y H) as [N _]. tauto.
        + apply (N6 y); auto.
      - apply IHl'; auto. intros x Hx. destruct (N5 x Hx). split; auto. }
    destruct NDz as (N1 & N2 & N3 & N4 & N5).
    assert (VT : forall t' x, In t' ts -> In x (below t') -> In x (concat (map positions ts))).
    { intros t' x Ht' Hx. apply in_concat. exists (positions t'). split; [now apply in_map|now apply below_positions]. }
    assert (Vz : forall x t', In x (pos z :: visited) -> In t' (z :: ts) -> ~ In x (below t')).
    { intros x t' [<-|Hx] [<-|Ht'] Hb; auto.
      - destruct z as [|j g z1 z2]; simpl in *; [contradiction|]. inversion N1; subst. rewrite !in_app_iff in *. tauto.
      - apply (proj2 (N4 _ (pos_in z))). eauto.
      - apply (proj1 (Dz _ Hx)). now apply below_positions.
      - exact (HV' _ _ Hx Ht' Hb). }
    assert (Vo : forall x t', In x (pos o :: visited) -> In t' (o :: ts) -> ~ In x (below t')).
    { intros x t' [<-|Hx] [<-|Ht'] Hb; auto.
      - destruct o as [|j g z1 z2]; simpl in *; [contradiction|]. inversion N2; subst. rewrite !in_app_iff in *. tauto.
      - apply (N5 _ (pos_in o)). eauto.
      - apply (proj2 (Dz _ Hx)). now apply below_positions.
      - exact (HV' _ _ Hx Ht' Hb). }
    destruct (ac_push_ok nodes z stack visited Lz) as (nz & Hnz & Ez).
    { intros Hx. apply (proj1 (Dz _ Hx)). apply pos_in. }
    destruct (ac_push_ok nodes o stack visited Lo) as (no & Hno & Eo).
    { intros Hx. apply (proj2 (Dz _ Hx)). apply pos_in. }
    destruct (ac_push_ok nodes o (nz :: stack) (pos z :: visited) Lo) as (no' & Hno' & Eo').
    { intros [Hx|Hx]; [|apply (proj2 (Dz _ Hx)); apply pos_in].
      apply (proj1 (N4 _ (pos_in z))). rewrite Hx. apply pos_in. }
    assert (no' = no) by congruence. subst no'.
    destruct (valid_feat_at d val f Hv) as [E|[E|E]]; rewrite E; cbn - [ac_loop ac_push forallb allc].
    + rewrite Ez. cbn - [ac_loop ac_push forallb allc]. rewrite Eo'. cbn - [ac_loop ac_push forallb allc].
      rewrite (IH (o :: z :: ts)).
      * cbn [forallb]. f_equal. destruct (allc b val z), (allc b val o); reflexivity.
      * repeat constructor; auto.
      * repeat constructor; auto.
      * repeat constructor; auto; eauto.
      * exact N3.
      * intros x t' Hx [<-|[<-|Ht']] Hb.
        -- destruct Hx as [<-|Hx]; [refine (Vo _ _ _ _ Hb); simpl; auto|]. destruct Hx as [<-|Hx]; [|refine (Vo _ _ _ _ Hb); simpl; auto].
           apply (proj1 (N4 _ (pos_in z))). now apply below_positions.
        -- destruct Hx as [<-|Hx]; [|refine (Vz _ _ _ _ Hb); simpl; auto].
           apply (proj1 (N4 (pos o) (below_positions _ _ Hb))). apply pos_in.
        -- destruct Hx as [<-|Hx]; [refine (Vo _ _ _ _ Hb); simpl; auto|refine (Vz _ _ _ _ Hb); simpl; auto].
      * unfold ac_total. simpl. rewrite !app_length. lia.
    + rewrite Ez. cbn - [ac_loop ac_push forallb allc]. rewrite (IH (z :: ts)); [reflexivity|auto|auto|constructor; eauto|auto|auto|unfold ac_total; simpl; rewrite app_length; lia].
    + rewrite Eo. cbn - [ac_loop ac_push forallb allc]. rewrite (IH (o :: ts)); [reflexivity|auto|auto|constructor; eauto|auto|auto|unfold ac_total; simpl; rewrite app_length; lia].
Qed.

Lemma allcomp_const_ok : forall m t c b, is_dtree m t -> valid_inst (Dim m) (cVal c) ->
  exists r, allcomp_const (Dim m) (Nodes m) c b = Ok r /\ (r = true <-> all_comp (Dim m) t b (cVal c)).
Proof.
  intros m t c b DT Hv. pose proof DT as (Hd & Hp & L & ND & Len & R).
  unfold allcomp_const. destruct (Nodes m) as [|root rest] eqn:EN.
  { exfalso. apply laid_out_pos in L. simpl in L. lia. }
  rewrite <- EN in *.
  assert (Hroot : nth_error (Nodes m) (Z.to_nat (pos t)) = Some root) by (rewrite Hp, EN; reflexivity).
  rewrite (ac_loop_ok (Dim m) (Nodes m) (cVal c) b Hv (allcomp_fuel (Nodes m)) [t] [root] []).
  - eexists. split; [reflexivity|]. simpl. rewrite andb_true_r. symmetry. eapply all_comp_allc; eauto.
  - repeat constructor; auto.
  - repeat constructor; auto.
  - repeat constructor. eauto.
  - simpl. now rewrite app_nil_r.
  - intros x t' [].
  - unfold ac_total, allcomp_fuel. simpl. rewrite app_nil_r. lia.
Qed.
