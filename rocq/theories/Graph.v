(* Models whose nodes are not a decision tree that tests each feature once on
   a branch: a feature tested twice, a node with two parents, a node no branch
   reaches. query/model.go:4-28 asks for a positive dimension, features in
   range and the root at index 0 only. *)
From Verif Require Import GoBase GoLemmas Cnf Query Walk Atoms Logop Spec Meaning CnfSem QueryLemmas Sym AtomBase AtomSimple Counter TreeLemmas AtomTree WalkConst AtomMain AtomCnf.
Local Open Scope Z_scope.
Local Open Scope list_scope.

(* ---- specification ---- *)

(* From the root, the nodes unfold into the tree t. A node with two parents
   occurs twice in t; other listed nodes do not occur. *)
Definition unfolds (m : model) (t : tree) : Prop :=
  (0 < Dim m)%nat /\ pos t = 0 /\ laid_out (Nodes m) t /\ feats_in (Dim m) t.

(* p: the tests passed from the root of t to the node s, with their outcomes. *)
Inductive branch : tree -> list (Z * FeatV) -> tree -> Prop :=
| br_here : forall t, branch t [] t
| br_zero : forall i f z o p s, branch z p s -> branch (Split i f z o) ((f, ZERO) :: p) s
| br_one : forall i f z o p s, branch o p s -> branch (Split i f z o) ((f, ONE) :: p) s.

(* e is the partial instance of some node: its defined features are those
   tested before the node, with the outcomes they had. *)
Definition at_node (d : nat) (t : tree) (e : inst) : Prop :=
  exists p s, branch t p s /\
    forall i v, in_range d i -> v <> BOT -> (feat e i = v <-> In (i, v) p).

(* The branches to the other class all have a test with an outcome that e
   excludes. *)
Definition no_branch_to (t : tree) (b : bool) (e : inst) : Prop :=
  forall p i, branch t p (Leaf i (negb b)) -> exists f v, In (f, v) p /\ feat e f <> BOT /\ feat e f <> v.

(* ---- trees ---- *)

Fixpoint walked (e : inst) (t : tree) : list (Z * FeatV) :=
  match t with
  | Leaf _ _ => []
  | Split _ f z o =>
      if feat e f =? BOT then []
      else (f, feat e f) :: walked e (if feat e f =? ONE then o else z)
  end.
Lemma walked_feats : forall e t, map fst (walked e t) = path_feats e t.
Proof.
  intros e. induction t as [i v|i f z IHz o IHo]; simpl; auto. destruct (feat e f =? BOT); auto. simpl.
  destruct (feat e f =? ONE); congruence.
Qed.
Lemma walked_values : forall e t i v, In (i, v) (walked e t) -> feat e i = v.
Proof.
  intros e. induction t as [j w|j f z IHz o IHo]; intros i v H; simpl in *; [contradiction|].
  destruct (feat e f =? BOT); [contradiction|]. destruct H as [[= <- <-]|H]; auto. destruct (feat e f =? ONE); auto.
Qed.
Lemma walked_branch : forall d e t, valid_inst d e -> exists s, branch t (walked e t) s.
Proof.
  intros d e t V. induction t as [i v|i f z IHz o IHo]; simpl; [eexists; constructor|].
  destruct (valid_feat_at d e f V) as [E|[E|E]]; rewrite E; simpl.
  - eexists; constructor.
  - destruct IHz as [s B]. exists s. now constructor.
  - destruct IHo as [s B]. exists s. now constructor.
Qed.
Lemma branch_walked : forall e t p s, branch t p s -> (forall f v, In (f, v) p -> feat e f = v) -> incl (map fst p) (path_feats e t).
Proof.
  intros e t p s B. induction B as [t|i f z o p s B IH|i f z o p s B IH]; intros H.
  - intros x [].
  - cbn [path_feats map fst]. rewrite (H f ZERO (or_introl eq_refl)). cbn. intros x [<-|Hx]; [now left|right].
    apply IH; auto. intros g v Hg. apply H. now right.
  - cbn [path_feats map fst]. rewrite (H f ONE (or_introl eq_refl)). cbn. intros x [<-|Hx]; [now left|right].
    apply IH; auto. intros g v Hg. apply H. now right.
Qed.
Lemma branch_tests : forall d t p s, feats_in d t -> branch t p s -> forall f v, In (f, v) p -> in_range d f /\ v <> BOT.
Proof.
  intros d t p s F B. induction B as [t|i f z o p s B IH|i f z o p s B IH]; intros g v H.
  - contradiction.
  - destruct F as (F1 & F2 & F3). destruct H as [[= <- <-]|H]; [split; [auto|discriminate]|auto].
  - destruct F as (F1 & F2 & F3). destruct H as [[= <- <-]|H]; [split; [auto|discriminate]|auto].
Qed.

Lemma at_node_path : forall d t e, feats_in d t -> valid_inst d e ->
  (at_node d t e <-> forall i, in_range d i -> feat e i = BOT \/ In i (path_feats e t)).
Proof.
  intros d t e F V. split.
  - intros (p & s & B & H) i Hi. destruct (Z.eq_dec (feat e i) BOT) as [|N]; auto. right.
    apply (branch_walked e t p s B).
    + intros f v Hf. destruct (branch_tests d t p s F B f v Hf) as [R Nv]. now apply H.
    + apply in_map_iff. exists (i, feat e i). split; auto. now apply H.
  - intros H. destruct (walked_branch d e t V) as [s B]. exists (walked e t), s. split; auto. intros i v Hi Nv. split.
    + intros <-. destruct (H i Hi) as [E|E]; [contradiction|]. rewrite <- walked_feats in E.
      apply in_map_iff in E as ([j w] & Ej & Hj). cbn in Ej. subst j. rewrite (walked_values _ _ _ _ Hj). exact Hj.
    + apply walked_values.
Qed.
Lemma at_node_is_node : forall d t e, read_once d [] t -> valid_inst d e -> (at_node d t e <-> is_node d t e).
Proof.
  intros d t e R V. rewrite (is_node_path d t e R V). apply at_node_path; auto. eapply read_once_feats; eauto.
Qed.

Lemma no_branch_allc : forall d b t e, valid_inst d e -> (no_branch_to t b e <-> allc b e t = true).
Proof.
  intros d b t e V. split.
  - intros H. destruct (allc b e t) eqn:A; auto. exfalso.
    assert (G : exists p i, branch t p (Leaf i (negb b)) /\ forall f v, In (f, v) p -> feat e f = BOT \/ feat e f = v).
    { clear H. induction t as [i v|i f z IHz o IHo]; simpl in A.
      - exists [], i. assert (v = negb b) by (destruct v, b; simpl in *; congruence). subst v. split; [constructor|intros f w []].
      - assert (ZC : allc b e z = false -> feat e f = BOT \/ feat e f = ZERO -> exists p i0, branch (Split i f z o) p (Leaf i0 (negb b)) /\ forall g v, In (g, v) p -> feat e g = BOT \/ feat e g = v).
        { intros X Y. destruct (IHz X) as (p & j & B & C). exists ((f, ZERO) :: p), j. split; [now constructor|].
          intros g v [[= <- <-]|Hg]; auto. }
        assert (OC : allc b e o = false -> feat e f = BOT \/ feat e f = ONE -> exists p i0, branch (Split i f z o) p (Leaf i0 (negb b)) /\ forall g v, In (g, v) p -> feat e g = BOT \/ feat e g = v).
        { intros X Y. destruct (IHo X) as (p & j & B & C). exists ((f, ONE) :: p), j. split; [now constructor|].
          intros g v [[= <- <-]|Hg]; auto. }
        destruct (valid_feat_at d e f V) as [E|[E|E]]; rewrite E in A; simpl in A.
        + apply andb_false_iff in A as [A|A]; auto.
        + auto.
        + auto. }
    destruct G as (p & i & B & C). destruct (H p i B) as (f & v & Hf & N1 & N2). destruct (C f v Hf); contradiction.
  - intros A p i B. remember (Leaf i (negb b)) as l eqn:El. induction B as [t|j f z o p s B IH|j f z o p s B IH].
    + subst t. simpl in A. destruct b; discriminate.
    + destruct (valid_feat_at d e f V) as [E|[E|E]]; simpl in A; rewrite E in A; simpl in A.
      * apply andb_true_iff in A as [A _]. destruct (IH A El) as (g & v & H & N). exists g, v. simpl; tauto.
      * destruct (IH A El) as (g & v & H & N). exists g, v. simpl; tauto.
      * exists f, ZERO. simpl. rewrite E. repeat split; auto; discriminate.
    + destruct (valid_feat_at d e f V) as [E|[E|E]]; simpl in A; rewrite E in A; simpl in A.
      * apply andb_true_iff in A as [_ A]. destruct (IH A El) as (g & v & H & N). exists g, v. simpl; tauto.
      * exists f, ONE. simpl. rewrite E. repeat split; auto; discriminate.
      * destruct (IH A El) as (g & v & H & N). exists g, v. simpl; tauto.
Qed.

Lemma allc_all_comp : forall d b t e, feats_in d t -> valid_inst d e -> allc b e t = true -> all_comp d t b e.
Proof.
  intros d b t e R He H x Hx. induction t as [i v|i f z IHz o IHo]; simpl in *.
  - now apply eqb_prop.
  - destruct R as (Rf & Rz & Ro). destruct (proj2 (proj2 Hx) f Rf) as [E|E].
    + rewrite E in H. simpl in H. apply andb_true_iff in H as [H1 H2]. destruct (feat x f =? ONE); auto.
    + rewrite E in H. destruct (Z.eqb_spec (feat x f) BOT) as [E'|E']; [elim (proj1 (proj2 Hx) f Rf E')|].
      destruct (feat x f =? ONE); auto.
Qed.

(* ---- shared nodes ---- *)

Lemma laid_out_inj : forall nodes t t', laid_out nodes t -> laid_out nodes t' -> pos t = pos t' -> t = t'.
Proof.
  intros nodes. induction t as [i b|i f z IHz o IHo]; intros [i' b'|i' f' z' o'] L L' E; simpl in E; subst i'; simpl in L, L'.
  - destruct L as (_ & n & H1 & H2 & H3). destruct L' as (_ & n' & H1' & H2' & H3'). assert (n' = n) by congruence. subst. reflexivity.
  - destruct L as (_ & n & H1 & H2 & H3). destruct L' as (_ & (n' & H1' & H2' & H3') & _). assert (n' = n) by congruence. subst. congruence.
  - destruct L as (_ & (n & H1 & H2 & H3) & _). destruct L' as (_ & n' & H1' & H2' & H3'). assert (n' = n) by congruence. subst. congruence.
  - destruct L as (_ & (n & H1 & H2 & H3 & H4 & H5) & Lz & Lo). destruct L' as (_ & (n' & H1' & H2' & H3' & H4' & H5') & Lz' & Lo').
    assert (n' = n) by congruence. subst n'. rewrite (IHz z' Lz Lz'), (IHo o' Lo Lo'); congruence.
Qed.

Fixpoint height (t : tree) : nat :=
  match t with Leaf _ _ => 1 | Split _ _ z o => S (Nat.max (height z) (height o)) end.

(* s occurs in t *)
Fixpoint inside (s t : tree) : Prop :=
  s = t \/ match t with Leaf _ _ => False | Split _ _ z o => inside s z \/ inside s o end.
Lemma inside_here : forall t, inside t t.
Proof. destruct t; simpl; auto. Qed.
Lemma inside_height : forall t s, inside s t -> (height s <= height t)%nat.
Proof.
  induction t as [i b|i f z IHz o IHo]; intros s H; simpl in H.
  - destruct H as [->|[]]. auto.
  - destruct H as [->|[H|H]]; auto; [apply IHz in H|apply IHo in H]; simpl; lia.
Qed.
Lemma inside_trans : forall t s r, inside r s -> inside s t -> inside r t.
Proof.
  induction t as [i b|i f z IHz o IHo]; intros s r H1 H2; simpl in H2.
  - destruct H2 as [->|[]]. auto.
  - destruct H2 as [->|[H2|H2]]; auto; simpl; [right; left; eauto|right; right; eauto].
Qed.
Lemma inside_laid : forall nodes t s, laid_out nodes t -> inside s t -> laid_out nodes s.
Proof.
  intros nodes. induction t as [i b|i f z IHz o IHo]; intros s L H; simpl in H.
  - destruct H as [->|[]]. auto.
  - destruct H as [->|[H|H]]; auto; destruct L as (_ & _ & Lz & Lo); auto.
Qed.
Lemma inside_feats : forall d t s, feats_in d t -> inside s t -> feats_in d s.
Proof.
  intros d. induction t as [i b|i f z IHz o IHo]; intros s L H; simpl in H.
  - destruct H as [->|[]]. auto.
  - destruct H as [->|[H|H]]; auto; destruct L as (_ & Lz & Lo); auto.
Qed.

(* different positions fit into the list *)
Lemma positions_fit : forall nodes ts, Forall (laid_out nodes) ts -> NoDup (map pos ts) -> (length ts <= length nodes)%nat.
Proof.
  intros nodes ts L ND. rewrite <- (map_length pos), <- (map_length Z.to_nat), <- (seq_length (length nodes) 0).
  apply NoDup_incl_length.
  - assert (P : Forall (fun i => 0 <= i) (map pos ts)).
    { rewrite Forall_map. eapply Forall_impl; [|exact L]. intros t Lt. apply laid_out_pos in Lt. lia. }
    clear L. induction ND as [|x l Hx ND IH]; simpl; constructor.
    + intros H. apply in_map_iff in H as (y & Hy & Hin). inversion P; subst. rewrite Forall_forall in H2. specialize (H2 y Hin).
      assert (x = y) by lia. now subst.
    + apply IH. now inversion P.
  - intros k Hk. apply in_map_iff in Hk as (i & <- & Hi). apply in_map_iff in Hi as (t & <- & Ht).
    rewrite Forall_forall in L. pose proof (laid_out_pos _ _ (L t Ht)). apply in_seq. lia.
Qed.

(* a longest branch *)
Fixpoint spine (t : tree) : list tree :=
  t :: match t with
       | Leaf _ _ => []
       | Split _ _ z o => if (height z <=? height o)%nat then spine o else spine z
       end.
Lemma spine_length : forall t, length (spine t) = height t.
Proof.
  induction t as [i b|i f z IHz o IHo]; simpl; auto. f_equal. destruct (Nat.leb_spec (height z) (height o)); lia.
Qed.
Lemma spine_inside : forall t s, In s (spine t) -> inside s t.
Proof.
  induction t as [i b|i f z IHz o IHo]; intros s H; simpl in H.
  - destruct H as [<-|[]]. simpl; auto.
  - destruct H as [<-|H]; [apply inside_here|]. simpl. right. destruct (height z <=? height o)%nat; auto.
Qed.
Lemma spine_nodup : forall nodes t, laid_out nodes t -> NoDup (map pos (spine t)).
Proof.
  intros nodes. induction t as [i b|i f z IHz o IHo]; intros L.
  - simpl. repeat constructor. intros [].
  - pose proof L as L0. destruct L as (_ & _ & Lz & Lo). cbn [spine map]. constructor.
    + intros H. apply in_map_iff in H as (s & Ep & Hs).
      assert (I : inside s z \/ inside s o) by (destruct (height z <=? height o)%nat; apply spine_inside in Hs; auto).
      assert (E : s = Split i f z o).
      { apply (laid_out_inj nodes); auto. destruct I as [I|I]; [apply (inside_laid nodes z)|apply (inside_laid nodes o)]; auto. }
      subst s. destruct I as [I|I]; apply inside_height in I; simpl in I; lia.
    + destruct (height z <=? height o)%nat; auto.
Qed.
Lemma height_fits : forall nodes t, laid_out nodes t -> (height t <= length nodes)%nat.
Proof.
  intros nodes t L. rewrite <- spine_length. apply positions_fit; [|now apply (spine_nodup nodes)].
  apply Forall_forall. intros s Hs. apply (inside_laid nodes t); auto. now apply spine_inside.
Qed.

(* ---- isnode.Const ---- *)

Lemma isnode_loop_graph : forall d nodes val, valid_inst d val ->
  forall t fuel vr n, laid_out nodes t -> feats_in d t ->
  nth_error nodes (Z.to_nat (pos t)) = Some n -> (height t <= fuel)%nat -> length vr = d ->
  exists vr', isnode_loop fuel d nodes val n vr = Ok vr' /\ length vr' = d /\
    forall k, in_range d k -> nth (Z.to_nat k) vr' 0 = if inb k (path_feats val t) then 1 else nth (Z.to_nat k) vr 0.
Proof.
  intros d nodes val Hv. induction t as [i b|i f z IHz o IHo]; intros fuel vr n L R Hn Hf Hl;
    destruct (laid_out_node _ _ L) as (n' & Hn' & Hp & Hc); assert (n' = n) by congruence; subst n'; clear Hn';
    destruct fuel as [|fuel]; cbn [height] in Hf; try lia; cbn [isnode_loop].
  - destruct Hc as [Hc _]. unfold isnode_step. rewrite Hc. simpl. exists vr. auto.
  - destruct Hc as (Hc & Ff & Fz & Fo). destruct R as (Rf & Rz & Ro). destruct L as (Li & Ln & Lz & Lo).
    unfold isnode_step. rewrite Hc, Ff, Fz, Fo. rewrite (ltb_out f (Z.of_nat d)) by apply Rf.
    rewrite (sget_feat d val f) by (auto; apply Hv). cbn [rbind path_feats].
    rewrite (ltb_out (pos z)) by (now apply laid_out_pos). rewrite (ltb_out (pos o)) by (now apply laid_out_pos).
    destruct (laid_out_node _ _ Lz) as (nz & Hnz & Pz & _). destruct (laid_out_node _ _ Lo) as (no & Hno & Po & _).
    unfold in_range in Rf.
    destruct (valid_feat_at d val f Hv) as [E|[E|E]]; rewrite E; cbn - [isnode_loop inb].
    + exists vr. auto.
    + rewrite sset_ok by lia. cbn - [isnode_loop inb]. rewrite (sget_ok _ _ _ _ Pz Hnz). cbn - [isnode_loop inb].
      destruct (IHz fuel (list_set vr (Z.to_nat f) 1) nz) as (vr' & E1 & E2 & E3); auto; try lia.
      { now rewrite list_set_length. }
      exists vr'. split; auto. split; auto. intros k Hk. rewrite E3 by auto. unfold inb. simpl. fold (inb k (path_feats val z)).
      destruct (Z.eqb_spec k f) as [->|N]; simpl.
      * rewrite list_set_same by lia. destruct (inb f (path_feats val z)); auto.
      * rewrite list_set_other by (unfold in_range in Hk; lia). reflexivity.
    + rewrite sset_ok by lia. cbn - [isnode_loop inb]. rewrite (sget_ok _ _ _ _ Po Hno). cbn - [isnode_loop inb].
      destruct (IHo fuel (list_set vr (Z.to_nat f) 1) no) as (vr' & E1 & E2 & E3); auto; try lia.
      { now rewrite list_set_length. }
      exists vr'. split; auto. split; auto. intros k Hk. rewrite E3 by auto. unfold inb. simpl. fold (inb k (path_feats val o)).
      destruct (Z.eqb_spec k f) as [->|N]; simpl.
      * rewrite list_set_same by lia. destruct (inb f (path_feats val o)); auto.
      * rewrite list_set_other by (unfold in_range in Hk; lia). reflexivity.
Qed.

Lemma unfolds_root : forall m t, unfolds m t -> exists root rest, Nodes m = root :: rest /\ nth_error (Nodes m) (Z.to_nat (pos t)) = Some root.
Proof.
  intros m t (Hd & Hp & L & F). destruct (Nodes m) as [|root rest] eqn:EN.
  - apply laid_out_pos in L. simpl in L. lia.
  - exists root, rest. split; auto. now rewrite Hp.
Qed.

Lemma isnode_const_graph : forall m t c, unfolds m t -> valid_inst (Dim m) (cVal c) ->
  exists b, isnode_const (Dim m) (Nodes m) c = Ok b /\ (b = true <-> at_node (Dim m) t (cVal c)).
Proof.
  intros m t c U Hv. destruct (unfolds_root m t U) as (root & rest & EN & Hroot). destruct U as (Hd & Hp & L & F).
  unfold isnode_const. rewrite EN. rewrite <- EN.
  assert (Hlen : length (newVisitRecord c) = Dim m) by (unfold newVisitRecord; rewrite map_length; apply Hv).
  destruct (isnode_loop_graph (Dim m) (Nodes m) (cVal c) Hv t (isnode_fuel (Nodes m)) (newVisitRecord c) root)
    as (vr & E1 & E2 & E3); auto.
  { unfold isnode_fuel. pose proof (height_fits _ _ L). lia. }
  rewrite E1. cbn [rbind]. eexists. split; [reflexivity|].
  assert (NV : forall k, in_range (Dim m) k -> nth (Z.to_nat k) (newVisitRecord c) 0 = if feat (cVal c) k =? BOT then 1 else 0).
  { intros k Hk. unfold newVisitRecord. rewrite (nth_indep _ 0 (if BOT =? BOT then 1 else 0)).
    - now rewrite (map_nth (fun ft => if ft =? BOT then 1 else 0)).
    - fold (newVisitRecord c). rewrite Hlen. unfold in_range in Hk. lia. }
  assert (ALL : forall P : Z -> Prop, Forall P vr <-> forall k, in_range (Dim m) k -> P (nth (Z.to_nat k) vr 0)).
  { intros P. rewrite Forall_forall. split.
    - intros H k Hk. apply H. apply nth_In. unfold in_range in Hk. lia.
    - intros H x Hx. apply (In_nth _ _ 0) in Hx as (j & Hj & <-). specialize (H (Z.of_nat j)). rewrite Nat2Z.id in H.
      apply H. unfold in_range. lia. }
  rewrite allFeatsVisited_iff.
  2:{ rewrite ALL. intros k Hk. rewrite E3, NV by auto. destruct (inb k (path_feats (cVal c) t)), (feat (cVal c) k =? BOT); lia. }
  rewrite ALL, (at_node_path _ _ _ F Hv).
  split; intros H k Hk; specialize (H k Hk).
  - rewrite E3, NV in H by auto. rewrite <- inb_In. destruct (inb k (path_feats (cVal c) t)); auto.
    destruct (Z.eqb_spec (feat (cVal c) k) BOT); auto. discriminate.
  - rewrite E3, NV by auto. rewrite <- inb_In in H. destruct (inb k (path_feats (cVal c) t)); auto.
    destruct (Z.eqb_spec (feat (cVal c) k) BOT); auto. destruct H; [contradiction|discriminate].
Qed.

(* ---- allcomp.Const ---- *)

Definition chosen (e : inst) (t : tree) : list tree :=
  match t with
  | Leaf _ _ => []
  | Split _ f z o => if feat e f =? BOT then [o; z] else if feat e f =? ONE then [o] else [z]
  end.
Definition good_leaf (b : bool) (t : tree) : Prop := match t with Leaf _ v => v = b | Split _ _ _ _ => True end.

(* every tree reached from t is in S *)
Lemma closed_allc : forall b e S, (forall s, In s S -> good_leaf b s /\ incl (chosen e s) S) ->
  forall t, In t S -> allc b e t = true.
Proof.
  intros b e S H. induction t as [i v|i f z IHz o IHo]; intros Ht; destruct (H _ Ht) as [G C]; simpl in *.
  - subst. apply eqb_reflx.
  - destruct (feat e f =? BOT).
    + rewrite IHz, IHo; auto; apply C; simpl; auto.
    + destruct (feat e f =? ONE); [apply IHo|apply IHz]; apply C; simpl; auto.
Qed.
(* the reached trees *)
Inductive visited_from (e : inst) (t : tree) : tree -> Prop :=
| vf_here : visited_from e t t
| vf_next : forall s r, visited_from e t s -> In r (chosen e s) -> visited_from e t r.
Lemma visited_allc : forall b e t s, visited_from e t s -> allc b e t = true -> allc b e s = true.
Proof.
  intros b e t s V A. induction V as [|s r V IH Hr]; auto. destruct s as [i v|i f z o]; simpl in *; [contradiction|].
  destruct (feat e f =? BOT).
  - apply andb_true_iff in IH as [I1 I2]. destruct Hr as [<-|[<-|[]]]; auto.
  - destruct (feat e f =? ONE); destruct Hr as [<-|[]]; auto.
Qed.
Lemma chosen_inside : forall e s r, In r (chosen e s) -> inside r s /\ (height r < height s)%nat.
Proof.
  intros e [i v|i f z o] r H; simpl in H; [contradiction|].
  assert (C : r = z \/ r = o) by (destruct (feat e f =? BOT); [|destruct (feat e f =? ONE)]; simpl in H; intuition).
  destruct C as [->| ->]; (split; [simpl; right; auto using inside_here|simpl; lia]).
Qed.
Lemma visited_inside : forall e t s, visited_from e t s -> inside s t.
Proof.
  intros e t s V. induction V as [|s r V IH Hr]; [apply inside_here|]. apply (inside_trans t s); auto. now apply (chosen_inside e).
Qed.

Section Graph.
Variables (d : nat) (nodes : list node) (val : list FeatV) (b : bool) (root : tree).
Hypothesis Hv : valid_inst d val.
Hypothesis HL : laid_out nodes root.
Hypothesis HF : feats_in d root.

Definition at_pos (n : node) (t : tree) : Prop := nth_error nodes (Z.to_nat (pos t)) = Some n.

(* the root and the trees pushed *)
Record ac_inv (seen ts : list tree) (stack : list node) (visited : list Z) : Prop := mkInv {
  ai_stack : Forall2 at_pos stack ts;
  ai_root : In root (seen ++ ts);
  ai_from : forall s, In s (seen ++ ts) -> visited_from val root s;
  ai_seen : forall s, In s seen -> good_leaf b s /\ incl (chosen val s) (seen ++ ts);
  ai_visited : forall i, In i visited <-> exists s, In s (seen ++ ts) /\ s <> root /\ pos s = i;
  ai_nodup : NoDup (map pos (seen ++ ts)) }.

Lemma push_one : forall r stack visited seen ts,
  Forall2 at_pos stack ts ->
  (forall s, In s (seen ++ ts) -> visited_from val root s) ->
  (forall i, In i visited <-> exists s, In s (seen ++ ts) /\ s <> root /\ pos s = i) ->
  NoDup (map pos (seen ++ ts)) -> In root (seen ++ ts) ->
  visited_from val root r -> r <> root ->
  exists stack' visited' ts', ac_push nodes (stack, visited) (pos r) = Ok (stack', visited') /\
    Forall2 at_pos stack' ts' /\ In r (seen ++ ts') /\ incl ts ts' /\
    (forall s, In s (seen ++ ts') -> visited_from val root s) /\
    (forall i, In i visited' <-> exists s, In s (seen ++ ts') /\ s <> root /\ pos s = i) /\
    NoDup (map pos (seen ++ ts')).
Proof.
  intros r stack visited seen ts HS HV HI ND HR Vr Nr.
  assert (Lr : laid_out nodes r) by (apply (inside_laid nodes root); auto; eapply visited_inside; eauto).
  unfold ac_push. destruct (existsb (Z.eqb (pos r)) visited) eqn:E.
  - exists stack, visited, ts. split; auto. split; auto.
    apply existsb_exists in E as (i & Hi & Ei). apply Z.eqb_eq in Ei. subst i. apply HI in Hi as (s & Hs & _ & Es).
    assert (s = r). { apply (laid_out_inj nodes); auto. apply (inside_laid nodes root); auto. eapply visited_inside; eauto. }
    subst s. split; auto. split; [apply incl_refl|]. auto.
  - destruct (laid_out_node _ _ Lr) as (n & Hn & Hp & _). rewrite (sget_ok _ _ _ _ Hp Hn). cbn [rbind].
    exists (n :: stack), (pos r :: visited), (r :: ts). split; auto. split; [constructor; auto|].
    assert (NI : ~ In (pos r) (map pos (seen ++ ts))).
    { intros H. apply in_map_iff in H as (s & Es & Hs).
      assert (s = r). { apply (laid_out_inj nodes); auto. apply (inside_laid nodes root); auto. eapply visited_inside; eauto. }
      subst s. assert (X : In (pos r) visited) by (apply HI; eauto).
      assert (Y : existsb (Z.eqb (pos r)) visited = true) by (apply existsb_exists; exists (pos r); split; auto; apply Z.eqb_refl). congruence. }
    split; [apply in_or_app; right; left; auto|]. split; [intros x Hx; now right|]. split; [|split].
    + intros s Hs. apply in_app_or in Hs as [Hs|[<-|Hs]]; auto; apply HV; apply in_or_app; auto.
    + intros i. split.
      * intros [<-|Hi]; [exists r; split; auto; apply in_or_app; right; left; auto|].
        apply HI in Hi as (s & Hs & Ns & Es). exists s. split; auto. apply in_app_or in Hs as [Hs|Hs]; apply in_or_app; simpl; auto.
      * intros (s & Hs & Ns & <-). apply in_app_or in Hs as [Hs|[<-|Hs]]; [right|left; auto|right]; apply HI; exists s; (split; [apply in_or_app; auto|auto]).
    + rewrite map_app in *. cbn [map]. apply (NoDup_Add (a := pos r) (l := map pos seen ++ map pos ts)); [|auto].
      apply Add_app.
Qed.

Lemma NoDup_move : forall (A : Type) (x : A) l1 l2, NoDup (l1 ++ x :: l2) -> NoDup ((x :: l1) ++ l2).
Proof. intros A x l1 l2 H. simpl. constructor; [now apply NoDup_remove_2 in H|now apply NoDup_remove_1 in H]. Qed.

Lemma ac_loop_graph : forall fuel seen ts stack visited,
  ac_inv seen ts stack visited -> (length nodes + 1 < length seen + fuel)%nat ->
  ac_loop fuel d nodes val b (stack, visited) = Ok (allc b val root).
Proof.
  induction fuel as [|fuel IH]; intros seen ts stack visited I Hf.
  { exfalso. assert (X : (length (seen ++ ts) <= length nodes)%nat).
    { apply positions_fit; [|apply I]. apply Forall_forall. intros s Hs. apply (inside_laid nodes root); auto.
      eapply visited_inside. now apply (ai_from _ _ _ _ I). }
    rewrite app_length in X. lia. }
  destruct I as [HS HR HV HC HI ND]. cbn [ac_loop]. destruct HS as [|n t stack ts Hn HS].
  - f_equal. symmetry. apply (closed_allc b val seen); [|now rewrite app_nil_r in HR].
    intros s Hs. rewrite app_nil_r in HC. auto.
  - assert (Vt : visited_from val root t) by (apply HV; apply in_or_app; simpl; auto).
    pose proof (visited_inside _ _ _ Vt) as It.
    pose proof (inside_laid _ _ _ HL It) as Lt. pose proof (inside_feats _ _ _ HF It) as Ft.
    destruct (laid_out_node _ _ Lt) as (n' & Hn' & Hp & Hc). unfold at_pos in Hn. assert (n' = n) by congruence. subst n'.
    assert (PERM : forall s, In s ((t :: seen) ++ ts) <-> In s (seen ++ t :: ts)).
    { intros s. simpl. rewrite !in_app_iff. simpl. tauto. }
    assert (ND' : NoDup (map pos ((t :: seen) ++ ts))).
    { rewrite map_app in *. cbn [map] in *. now apply NoDup_move. }
    assert (HV' : forall s, In s ((t :: seen) ++ ts) -> visited_from val root s) by (intros s Hs; apply HV; now apply PERM).
    assert (HI' : forall i, In i visited <-> exists s, In s ((t :: seen) ++ ts) /\ s <> root /\ pos s = i).
    { intros i. rewrite HI. split; intros (s & Hs & X); exists s; (split; [now apply PERM|auto]). }
    assert (HR' : In root ((t :: seen) ++ ts)) by now apply PERM.
    destruct t as [i v|i f z o].
    + destruct Hc as (Hl & Hv'). rewrite Hl, Hv'. destruct (eqb v b) eqn:Ev.
      * apply (IH (Leaf i v :: seen) ts); [|simpl; lia]. constructor; auto.
        intros s [<-|Hs]; [split; [simpl; now apply eqb_prop|intros x []]|]. destruct (HC s Hs) as [G C]. split; auto.
        intros x Hx. apply PERM. now apply C.
      * f_equal. symmetry. apply not_true_iff_false. intros A. apply (visited_allc b val root _ Vt) in A. simpl in A. congruence.
    + destruct Hc as (Hl & Ff & Fz & Fo). rewrite Hl, Ff, Fz, Fo. destruct Ft as (Rf & Rz & Ro).
      rewrite (ltb_out f (Z.of_nat d)) by apply Rf. rewrite (sget_feat d val f) by (auto; apply Hv). cbn [rbind].
      assert (CH : forall r, In r (chosen val (Split i f z o)) -> visited_from val root r /\ r <> root).
      { intros r Hr. split; [eapply vf_next; eauto|]. intros ->. apply chosen_inside in Hr as [_ Hr]. apply inside_height in It. lia. }
      assert (ONE_CHILD : forall r, chosen val (Split i f z o) = [r] ->
        rbind (ac_push nodes (stack, visited) (pos r)) (fun st' => ac_loop fuel d nodes val b st') = Ok (allc b val root)).
      { intros r Er. destruct (CH r) as [Vr Nr]; [rewrite Er; now left|].
        destruct (push_one r stack visited (Split i f z o :: seen) ts HS HV' HI' ND' HR' Vr Nr) as (st' & vi' & ts' & E1 & E2 & E3 & E4 & E5 & E6 & E7).
        rewrite E1. cbn [rbind]. apply (IH (Split i f z o :: seen) ts'); [|simpl; lia].
        assert (SUB : incl ((Split i f z o :: seen) ++ ts) ((Split i f z o :: seen) ++ ts')).
        { intros x Hx. apply in_app_or in Hx as [Hx|Hx]; apply in_or_app; auto. }
        constructor; auto. intros s [<-|Hs].
        - split; [simpl; auto|]. rewrite Er. intros x [<-|[]]. exact E3.
        - destruct (HC s Hs) as [G C]. split; auto. intros x Hx. apply SUB. apply PERM. now apply C. }
      destruct (valid_feat_at d val f Hv) as [E|[E|E]]; rewrite E; cbn - [ac_loop ac_push].
      * assert (Ec : chosen val (Split i f z o) = [o; z]) by (simpl; rewrite E; reflexivity).
        destruct (CH z) as [Vz Nz]; [rewrite Ec; simpl; auto|]. destruct (CH o) as [Vo No]; [rewrite Ec; simpl; auto|].
        destruct (push_one z stack visited (Split i f z o :: seen) ts HS HV' HI' ND' HR' Vz Nz) as (st1 & vi1 & ts1 & E1 & E2 & E3 & E4 & E5 & E6 & E7).
        rewrite E1. cbn - [ac_loop ac_push].
        assert (SUB : incl ((Split i f z o :: seen) ++ ts) ((Split i f z o :: seen) ++ ts1)).
        { intros x Hx. apply in_app_or in Hx as [Hx|Hx]; apply in_or_app; auto. }
        destruct (push_one o st1 vi1 (Split i f z o :: seen) ts1 E2 E5 E6 E7 (SUB _ HR') Vo No) as (st2 & vi2 & ts2 & D1 & D2 & D3 & D4 & D5 & D6 & D7).
        rewrite D1. cbn - [ac_loop ac_push].
        assert (SUB2 : incl ((Split i f z o :: seen) ++ ts1) ((Split i f z o :: seen) ++ ts2)).
        { intros x Hx. apply in_app_or in Hx as [Hx|Hx]; apply in_or_app; auto. }
        apply (IH (Split i f z o :: seen) ts2); [|simpl; lia]. constructor; auto. intros s [<-|Hs].
        -- split; [simpl; auto|]. rewrite Ec. intros x [<-|[<-|[]]]; [exact D3|apply SUB2; exact E3].
        -- destruct (HC s Hs) as [G C]. split; auto. intros x Hx. apply SUB2, SUB. apply PERM. now apply C.
      * apply ONE_CHILD. simpl. rewrite E. reflexivity.
      * apply ONE_CHILD. simpl. rewrite E. reflexivity.
Qed.
End Graph.

Lemma allcomp_const_graph : forall m t c b, unfolds m t -> valid_inst (Dim m) (cVal c) ->
  allcomp_const (Dim m) (Nodes m) c b = Ok (allc b (cVal c) t).
Proof.
  intros m t c b U Hv. destruct (unfolds_root m t U) as (root & rest & EN & Hroot). destruct U as (Hd & Hp & L & F).
  unfold allcomp_const. rewrite EN. rewrite <- EN.
  apply (ac_loop_graph (Dim m) (Nodes m) (cVal c) b t Hv L F _ [] [t]).
  - constructor.
    + constructor; [exact Hroot|constructor].
    + now left.
    + intros s [<-|[]]. constructor.
    + intros s [].
    + intros i. split; [intros []|]. intros (s & [<-|[]] & N & _). contradiction.
    + simpl. repeat constructor. intros [].
  - unfold allcomp_fuel. simpl. lia.
Qed.

(* ---- the components ---- *)

Lemma tree_unfolds : forall m t, is_tree m t -> unfolds m t.
Proof. intros m t (A & B & C & _ & _ & D). unfold unfolds. auto. Qed.

Lemma node_c_as : forall c t k, sc_inv (cScoper c) -> unfolds (cModel c) t -> valid_inst (Dim (cModel c)) (cVal (fst (ScopeConst (cScoper c) k))) ->
  encodes_as t c (NodeC k) (fun _ => at_node (Dim (cModel c)) t (cVal (fst (ScopeConst (cScoper c) k)))).
Proof.
  intros [s vm m] t k J U V. cbn [cModel cScoper] in *. unfold encodes_as. rewrite (atom_enc_resolve s vm m vm (NodeC k) J). cbn [resolve map_atom cModel cScoper].
  unfold sconst in *. generalize dependent (fst (ScopeConst s k)). intros c V. atom_start. destruct (isnode_const_graph m t c U V) as (b & E & B). rewrite E.
  eexists. split; [reflexivity|]. intros E'. exact B.
Qed.
Lemma all_c_as : forall c t k b, sc_inv (cScoper c) -> unfolds (cModel c) t -> valid_inst (Dim (cModel c)) (cVal (fst (ScopeConst (cScoper c) k))) ->
  encodes_as t c (AllC k b) (fun _ => no_branch_to t b (cVal (fst (ScopeConst (cScoper c) k)))).
Proof.
  intros [s vm m] t k b J U V. cbn [cModel cScoper] in *. unfold encodes_as. rewrite (atom_enc_resolve s vm m vm (AllC k b) J). cbn [resolve map_atom cModel cScoper].
  unfold sconst in *. generalize dependent (fst (ScopeConst s k)). intros c V. atom_start. rewrite (allcomp_const_graph m t c b U V).
  eexists. split; [reflexivity|]. intros E'. symmetry. apply (no_branch_allc (Dim m)); auto.
Qed.

Lemma tree_cons : forall m t, is_tree m t -> exists n l, Nodes m = n :: l.
Proof. intros m t T. destruct (unfolds_root m t (tree_unfolds m t T)) as (n & l & E & _). eauto. Qed.

Lemma node_v_as : forall c t v g, sc_inv (cScoper c) -> is_tree (cModel c) t ->
  encodes_as t c (NodeV v (Some g)) (fun E => at_node (Dim (cModel c)) t (E (sname (cScoper c) v))).
Proof.
  intros [s vm m] t v' g J DT. cbn [cModel cScoper] in *. unfold encodes_as. rewrite (atom_enc_resolve s vm m vm (NodeV v' (Some g)) J). cbn [resolve map_atom cModel cScoper].
  set (v := sname s v'). cbn [atom_enc need]. atom_start.
  destruct (tree_cons m t DT) as (n0 & l0 & EN). rewrite EN. rewrite <- EN.
  destruct (isnode_fcl_ok m t DT v (g v)) as (fcl & Ef & Nf & _). rewrite Ef. cbn [rbind]. eexists; split; [reflexivity|].
  split; [|split].
  - intros tv E R C. rewrite (isnode_cons m t DT tv v (g v) (E v)) in C by (apply R; simpl; auto).
    assert (NF : Forall no_from (concat (mapi (fun i n => if IsLeaf n then [] else [ECons (isnode_reach v (g v) i n)]) (Nodes m)))).
    { apply nf_concat. apply Forall_forall. intros x Hx. apply In_mapi in Hx as (i & n & _ & _ & ->). destruct (IsLeaf n); repeat constructor. }
    rewrite sems_app by auto. unfold sems at 1. cbn [fold_left emit_sem app].
    rewrite sems_concat, map_mapi.
    2:{ apply Forall_forall. intros x Hx. apply In_mapi in Hx as (i & n & _ & _ & ->). destruct (IsLeaf n); repeat constructor. }
    assert (Rv : rep (Dim m) tv v (E v)) by (apply R; simpl; auto).
    rewrite scls_true_app, andb_true_iff, scls_mapi. rewrite (isnode_sem_path m t DT tv v (g v) (E v) fcl) by auto.
    rewrite (at_node_path (Dim m) t (E v)) by (apply DT || apply Rv).
    split; [tauto|]. intros H; split; auto. intros i n _ _. destruct (IsLeaf n); reflexivity.
  - intros tv E R C. rewrite (isnode_cons m t DT tv v (g v) (E v)) by (apply R; simpl; auto).
    intros i _. now rewrite (C (g v) (KReachN v) (or_introl eq_refl)).
  - cbn [vars_of aux_of app1]. apply enamed_app.
    + apply en_alloc.
      { intros u Hu. apply in_app_or in Hu as [Hu|Hu].
        - apply in_map_iff in Hu as (i & <- & _). unfold uname; simpl; auto.
        - apply in_concat in Hu as (c & Hc & Hu). apply In_mapi in Hc as (i & n & _ & _ & ->).
          destruct (IsLeaf n); simpl in Hu; [contradiction|]. destruct Hu as [<-|[]]. unfold uname; simpl; auto. }
      apply en_sem; [|apply en_con; [|apply enamed_nil]].
      * intros cl l Hc Hl. destruct (Nf cl Hc l Hl) as [(k & _ & ->)|(i & ->)]; unfold uname; simpl; auto.
      * intros cl l Hc Hl. lits_in. unfold uname; simpl; auto.
    + apply enamed_concat. intros c Hc. apply In_mapi in Hc as (i & n & _ & _ & ->).
      destruct (IsLeaf n); [apply enamed_nil|]. apply en_con; [|apply enamed_nil]. apply nm_isnode_reach; simpl; auto.
Qed.

Lemma all_v_as : forall c t v b g, sc_inv (cScoper c) -> is_tree (cModel c) t ->
  encodes_as t c (AllV v b (Some g)) (fun E => no_branch_to t b (E (sname (cScoper c) v))).
Proof.
  intros [s vm m] t v' b g J DT. cbn [cModel cScoper] in *. unfold encodes_as. rewrite (atom_enc_resolve s vm m vm (AllV v' b (Some g)) J). cbn [resolve map_atom cModel cScoper].
  set (v := sname s v'). cbn [atom_enc need]. atom_start.
  destruct (tree_cons m t DT) as (n0 & l0 & EN). rewrite EN. rewrite <- EN. eexists; split; [reflexivity|].
  split; [|split].
  - intros tv E R C. assert (Rv : rep (Dim m) tv v (E v)) by (apply R; simpl; auto).
    rewrite (allcomp_cons m t DT tv v (g v) (E v)) in C by auto.
    rewrite (no_branch_allc (Dim m)) by apply Rv. apply (allcomp_sem_allc m t DT tv v (g v) (E v)); auto.
  - intros tv E R C. rewrite (allcomp_cons m t DT tv v (g v) (E v)) by (apply R; simpl; auto).
    intros i _. now rewrite (C (g v) (KReachA v) (or_introl eq_refl)).
  - cbn [vars_of aux_of app1]. apply en_con; [intros cl l Hc Hl; lits_in; unfold uname; simpl; auto|].
    apply enamed_concat. intros c Hc. apply In_mapi in Hc as (i & n & _ & _ & ->). unfold allcomp_node.
    destruct (IsLeaf n); [destruct (eqb (nValue n) b)|]; try apply enamed_nil.
    + apply en_sem; [finite|apply enamed_nil].
    + apply en_con; [finite|apply enamed_nil].
Qed.
