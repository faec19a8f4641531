(* Exactness of the encoders that look at the tree: isnode, allcomp. *)
From Verif Require Import GoBase Cnf Query Walk Atoms Spec Sym AtomBase AtomSimple Counter TreeLemmas.
Local Open Scope Z_scope.
Local Open Scope list_scope.

(* ---- emissions without EFrom add up ---- *)

Definition no_from (e : emit) : Prop := match e with EFrom _ => False | _ => True end.

Lemma cons_add : forall es acc, Forall no_from es -> fold_left emit_con es acc = acc ++ cons_ es.
Proof.
  unfold cons_. induction es as [|e es IH]; intros acc H; simpl; [now rewrite app_nil_r|].
  inversion H; subst. rewrite (IH (emit_con acc e)), (IH (emit_con [] e)) by auto.
  destruct e; simpl in *; try contradiction; rewrite ?app_nil_r, ?app_assoc; auto.
Qed.
Lemma sems_add : forall es acc, Forall no_from es -> fold_left emit_sem es acc = acc ++ sems es.
Proof.
  unfold sems. induction es as [|e es IH]; intros acc H; simpl; [now rewrite app_nil_r|].
  inversion H; subst. rewrite (IH (emit_sem acc e)), (IH (emit_sem [] e)) by auto.
  destruct e; simpl in *; try contradiction; rewrite ?app_nil_r, ?app_assoc; auto.
Qed.
Lemma cons_app : forall a b, Forall no_from b -> cons_ (a ++ b) = cons_ a ++ cons_ b.
Proof. intros. unfold cons_ at 1. rewrite fold_left_app. now apply cons_add. Qed.
Lemma sems_app : forall a b, Forall no_from b -> sems (a ++ b) = sems a ++ sems b.
Proof. intros. unfold sems at 1. rewrite fold_left_app. now apply sems_add. Qed.
Lemma cons_concat : forall l, Forall (Forall no_from) l -> cons_ (concat l) = concat (map cons_ l).
Proof.
  induction l as [|e l IH]; intros H; simpl; auto. inversion H; subst. rewrite cons_app, IH; auto.
  clear -H3. induction H3; simpl; auto. apply Forall_app; auto.
Qed.
Lemma sems_concat : forall l, Forall (Forall no_from) l -> sems (concat l) = concat (map sems l).
Proof.
  induction l as [|e l IH]; intros H; simpl; auto. inversion H; subst. rewrite sems_app, IH; auto.
  clear -H3. induction H3; simpl; auto. apply Forall_app; auto.
Qed.
Lemma cons_map_sem : forall A (f : A -> list sclause) l, cons_ (map (fun x => ESem (f x)) l) = [].
Proof. intros. unfold cons_. assert (G : forall acc, fold_left emit_con (map (fun x => ESem (f x)) l) acc = acc) by (induction l; simpl; auto). apply G. Qed.
Lemma sems_map_sem : forall A (f : A -> list sclause) l, sems (map (fun x => ESem (f x)) l) = flat_map f l.
Proof.
  intros. unfold sems. assert (G : forall acc, fold_left emit_sem (map (fun x => ESem (f x)) l) acc = acc ++ flat_map f l).
  { induction l as [|x l IH]; intros acc; simpl; [now rewrite app_nil_r|]. now rewrite IH, app_assoc. }
  apply (G []).
Qed.
Lemma flat_map_singleton : forall A B (f : A -> B) l, flat_map (fun x => [f x]) l = map f l.
Proof. intros. induction l; simpl; congruence. Qed.
Lemma no_from_map_sem : forall A (f : A -> list sclause) l, Forall no_from (map (fun x => ESem (f x)) l).
Proof. intros. rewrite Forall_map. apply Forall_forall. simpl. auto. Qed.
Lemma no_from_map_con : forall A (f : A -> list sclause) l, Forall no_from (map (fun x => ECons (f x)) l).
Proof. intros. rewrite Forall_map. apply Forall_forall. simpl. auto. Qed.

(* ---- loops over the nodes ---- *)

Lemma In_mapi_from : forall A B (f : Z -> A -> B) l k x,
  In x (mapi_from k f l) <-> exists i a, 0 <= i /\ nth_error l (Z.to_nat i) = Some a /\ x = f (k + i) a.
Proof.
  intros A B f l. induction l as [|a l IH]; intros k x; simpl.
  - split; [intros []|]. intros (i & a & _ & H & _). destruct (Z.to_nat i); discriminate.
  - rewrite IH. split.
    + intros [<-|(i & b & Hi & Hb & ->)].
      * exists 0, a. split; [lia|]. split; auto. f_equal; lia.
      * exists (i + 1), b. split; [lia|]. replace (Z.to_nat (i + 1)) with (S (Z.to_nat i)) by lia.
        split; auto. f_equal; lia.
    + intros (i & b & Hi & Hb & ->). destruct (Z.eq_dec i 0) as [->|N].
      * left. simpl in Hb. injection Hb as ->. f_equal; lia.
      * right. exists (i - 1), b. split; [lia|].
        replace (Z.to_nat i) with (S (Z.to_nat (i - 1))) in Hb by lia. simpl in Hb. split; auto. f_equal; lia.
Qed.
Lemma In_mapi : forall A B (f : Z -> A -> B) l x,
  In x (mapi f l) <-> exists i a, 0 <= i /\ nth_error l (Z.to_nat i) = Some a /\ x = f i a.
Proof. intros. unfold mapi. rewrite In_mapi_from. reflexivity. Qed.
Lemma map_mapi : forall A B C (g : B -> C) (f : Z -> A -> B) l, map g (mapi f l) = mapi (fun i a => g (f i a)) l.
Proof.
  intros. unfold mapi. generalize 0. induction l as [|a l IH]; intros k; simpl; auto. now rewrite IH.
Qed.
Lemma mapi_ext : forall A B (f g : Z -> A -> B) l, (forall i a, f i a = g i a) -> mapi f l = mapi g l.
Proof. intros A B f g l H. unfold mapi. generalize 0. induction l as [|a l IH]; intros k; simpl; auto. now rewrite H, IH. Qed.

Lemma scls_mapi : forall t (f : Z -> node -> list sclause) nodes,
  scls_true t (concat (mapi f nodes)) = true <->
  forall i n, 0 <= i -> nth_error nodes (Z.to_nat i) = Some n -> scls_true t (f i n) = true.
Proof.
  intros t f nodes. rewrite scls_concat, forallb_forall. setoid_rewrite In_mapi. split.
  - intros H i n Hi Hn. apply H. exists i, n. auto.
  - intros H x (i & n & Hi & Hn & ->). auto.
Qed.

(* ---- reachability clauses ---- *)

Section Tree.
Variables (m : model) (t : tree).
Hypothesis DT : is_tree m t.
Let d := Dim m.
Let nodes := Nodes m.

Lemma dt_pos : (0 < d)%nat. Proof. apply DT. Qed.
Lemma dt_laid : laid_out nodes t. Proof. apply DT. Qed.
Lemma dt_nodup : NoDup (positions t). Proof. apply DT. Qed.
Lemma dt_feats : feats_in d t. Proof. apply DT. Qed.
Lemma dt_root : pos t = 0. Proof. apply DT. Qed.

Lemma splits_feat : forall t' i f z o, feats_in d t' -> In (i, f, z, o) (splits t') -> in_range d f.
Proof.
  clear. induction t' as [j b|j g z IHz o IHo]; intros i f z' o' R H; simpl in H; [contradiction|].
  destruct R as (Rf & Rz & Ro). destruct H as [[= <- <- <- <-]|H]; auto.
  apply in_app_or in H as [H|H]; eauto.
Qed.
Lemma nodes_in : forall i n, 0 <= i -> nth_error nodes (Z.to_nat i) = Some n -> In i (positions t).
Proof.
  intros i n Hi Hn. apply (positions_all m t DT). fold nodes.
  assert (Z.to_nat i < length nodes)%nat by (apply nth_error_Some; congruence). lia.
Qed.
Lemma inner_feat : forall i n, 0 <= i -> nth_error nodes (Z.to_nat i) = Some n -> IsLeaf n = false ->
  in_range d (nFeat n).
Proof.
  intros i n Hi Hn Hl. apply (splits_feat t i _ (zChild n) (oChild n) dt_feats).
  apply (splits_iff nodes); [apply dt_laid|]. split; [eapply nodes_in; eauto|]. exists n. auto.
Qed.

Lemma split_conds : forall P : Z -> Z -> Z -> Z -> Prop,
  (forall i n, 0 <= i -> nth_error nodes (Z.to_nat i) = Some n -> IsLeaf n = false -> P i (nFeat n) (zChild n) (oChild n))
  <-> every_split P t.
Proof.
  intros P. rewrite (every_split_iff nodes t P dt_laid). split.
  - intros H i n Hi. apply H. pose proof (laid_out_range _ _ dt_laid) as R. rewrite Forall_forall in R.
    specialize (R i Hi). lia.
  - intros H i n Hi Hn. apply H; auto. eapply nodes_in; eauto.
Qed.
Lemma leaf_conds : forall Q : Z -> bool -> Prop,
  (forall i n, 0 <= i -> nth_error nodes (Z.to_nat i) = Some n -> IsLeaf n = true -> Q i (nValue n))
  <-> every_leaf Q t.
Proof.
  intros Q. rewrite (every_leaf_iff nodes t Q dt_laid). split.
  - intros H i n Hi. apply H. pose proof (laid_out_range _ _ dt_laid) as R. rewrite Forall_forall in R.
    specialize (R i Hi). lia.
  - intros H i n Hi Hn. apply H; auto. eapply nodes_in; eauto.
Qed.

Definition reached (gz go : FeatV -> bool) (tv : tval) (r : string) (e : inst) : Prop :=
  forall i, In i (positions t) -> tv (r, 0, i) = inb i (reach gz go e t).

Lemma reached_iff : forall gz go (tv : tval) r e,
  tv (r, 0, 0) = true /\ every_split (set_cond (fun i => tv (r, 0, i)) gz go e) t <-> reached gz go tv r e.
Proof.
  intros gz go tv r e. rewrite (reach_exact gz go e t (fun i => tv (r, 0, i)) dt_nodup).
  rewrite dt_root. unfold reached. split.
  - intros [H0 H] i Hi. rewrite (H i Hi), H0. reflexivity.
  - intros H. assert (H0 : tv (r, 0, 0) = true).
    { pose proof (H (pos t) (pos_in t)) as X. rewrite inb_reach_root, dt_root in X. exact X. }
    split; auto. intros i Hi. rewrite H0. simpl. auto.
Qed.

(* ---- isnode.Var ---- *)

Lemma isnode_reach_ok : forall tv v r e i n, rep d tv v e -> in_range d (nFeat n) -> IsLeaf n = false ->
  (scls_true tv (isnode_reach v r i n) = true <->
   set_cond (fun p => tv (r, 0, p)) gzN goN e i (nFeat n) (zChild n) (oChild n)).
Proof.
  intros tv v r e i n H Hf Hl. unfold isnode_reach, set_cond, gzN, goN. rewrite Hl. lits.
  rewrite (rep_ZERO _ _ _ _ _ H Hf), (rep_ONE _ _ _ _ _ H Hf).
  destruct (tv (r, 0, i)), (tv (r, 0, zChild n)), (tv (r, 0, oChild n)); feat3 H (nFeat n); simpl; split;
    try discriminate; auto; intros [? ?]; discriminate.
Qed.

Lemma isnode_cons : forall tv v r e fcl, rep d tv v e ->
  (scls_true tv (cons_ ([EAlloc (isnode_fcl_alloc (Z.of_nat d) nodes v r); ESem fcl; ECons [[Lp r 0 0]]]
      ++ concat (mapi (fun i n => if IsLeaf n then [] else [ECons (isnode_reach v r i n)]) nodes))) = true
   <-> reached gzN goN tv r e).
Proof.
  intros tv v r e fcl H.
  assert (NF : Forall (Forall no_from) (mapi (fun i n => if IsLeaf n then [] else [ECons (isnode_reach v r i n)]) nodes)).
  { apply Forall_forall. intros x Hx. apply In_mapi in Hx as (i & n & _ & _ & ->). destruct (IsLeaf n); repeat constructor. }
  rewrite cons_app by (clear -NF; induction NF; simpl; auto; apply Forall_app; auto).
  rewrite cons_concat, map_mapi by auto.
  rewrite scls_true_app, andb_true_iff, scls_mapi, <- reached_iff, <- split_conds.
  apply and_iff2.
  - unfold cons_. simpl. lits. reflexivity.
  - split.
    + intros G i n Hi Hn Hl. rewrite <- (isnode_reach_ok tv v r e i n H (inner_feat i n Hi Hn Hl) Hl).
      specialize (G i n Hi Hn). rewrite Hl in G. exact G.
    + intros G i n Hi Hn. destruct (IsLeaf n) eqn:Hl; [reflexivity|].
      apply (isnode_reach_ok tv v r e i n H (inner_feat i n Hi Hn Hl) Hl). auto.
Qed.

(* the clauses fcl: feature k is BOT or tested by a reached node *)
Definition tests (k : Z) (p : Z * node) : bool := negb (IsLeaf (snd p)) && (nFeat (snd p) =? k).

Lemma fcl_fold : forall r (l : list (Z * node)) acc,
  length acc = d ->
  (forall p, In p l -> IsLeaf (snd p) = false -> in_range d (nFeat (snd p))) ->
  exists acc', fold_left (isnode_fcl_step r) l (Ok acc) = Ok acc' /\ length acc' = d /\
    forall k, in_range d k ->
      nth (Z.to_nat k) acc' [] = nth (Z.to_nat k) acc [] ++ map (fun p => Lp r 0 (fst p)) (filter (tests k) l).
Proof.
  intros r. induction l as [|[i n] l IH]; intros acc Hl Hr; simpl.
  - exists acc. split; auto. split; auto. intros. now rewrite app_nil_r.
  - destruct (IsLeaf n) eqn:L.
    + destruct (IH acc Hl) as (acc' & E1 & E2 & E3). { intros p Hp. apply Hr. simpl; auto. }
      exists acc'. split; auto. split; auto. intros k Hk. rewrite E3 by auto. unfold tests at 2. simpl. rewrite L. reflexivity.
    + assert (Hf : in_range d (nFeat n)) by (apply (Hr (i, n)); simpl; auto).
      unfold in_range in Hf.
      destruct (nth_error acc (Z.to_nat (nFeat n))) as [cl|] eqn:E.
      2:{ apply nth_error_None in E. lia. }
      assert (Eg : sget acc (nFeat n) = Ok cl).
      { apply sget_ok; [lia|auto]. }
      assert (Es : sset acc (nFeat n) (cl ++ [Lp r 0 i]) = Ok (list_set acc (Z.to_nat (nFeat n)) (cl ++ [Lp r 0 i]))).
      { apply sset_ok. lia. }
      rewrite Eg. simpl. rewrite Es.
      destruct (IH (list_set acc (Z.to_nat (nFeat n)) (cl ++ [Lp r 0 i]))) as (acc' & E1 & E2 & E3).
      { now rewrite list_set_length. } { intros p Hp. apply Hr. simpl; auto. }
      exists acc'. split; auto. split; auto. intros k Hk. rewrite E3 by auto.
      unfold tests at 2. simpl. rewrite L. simpl.
      destruct (Z.eqb_spec (nFeat n) k) as [<-|N].
      * rewrite list_set_same by lia. rewrite (nth_error_nth _ _ _ E). simpl. rewrite <- app_assoc. reflexivity.
      * rewrite list_set_other by (unfold in_range in Hk; lia). reflexivity.
Qed.

Lemma isnode_fcl_ok : forall v r, exists fcl, isnode_fcl (Z.of_nat d) nodes v r = Ok fcl /\
  (forall cl, In cl fcl -> forall l, In l cl -> (exists k, in_range d k /\ l = Lp v k BOT) \/ (exists i, l = Lp r 0 i)) /\
  forall tv, scls_true tv fcl = true <->
    forall k, in_range d k -> tv (v, k, BOT) = true \/
      exists i n, 0 <= i /\ nth_error nodes (Z.to_nat i) = Some n /\ IsLeaf n = false /\ nFeat n = k /\ tv (r, 0, i) = true.
Proof.
  intros v r. unfold isnode_fcl.
  destruct (fcl_fold r (mapi pair nodes) (map (fun i => [Lp v i BOT]) (zrange 0 (Z.of_nat d)))) as (fcl & E1 & E2 & E3).
  { unfold zrange. rewrite !map_length, seq_length. lia. }
  { intros p Hp. apply In_mapi in Hp as (i & n & Hi & Hn & ->). simpl. intros L. eapply inner_feat; eauto. }
  exists fcl. split; auto. unfold sclause in *.
  assert (E4 : forall k, in_range d k -> nth (Z.to_nat k) fcl [] = Lp v k BOT :: map (fun p => Lp r 0 (fst p)) (filter (tests k) (mapi pair nodes))).
  { intros k Hk. rewrite E3 by auto. unfold in_range in Hk.
    assert (X : nth (Z.to_nat k) (map (fun i => [Lp v i BOT]) (zrange 0 (Z.of_nat d))) [] = [Lp v k BOT]).
    { rewrite <- indices_below_zrange. rewrite (nth_indep _ [] [Lp v 0 BOT]).
      - rewrite (map_nth (fun i => [Lp v i BOT])). unfold indices_below.
        change 0 with (Z.of_nat 0) at 1. rewrite map_nth, seq_nth by lia. f_equal. f_equal. lia.
      - unfold indices_below. rewrite !map_length, seq_length. lia. }
    rewrite X. reflexivity. }
  assert (E5 : forall cl, In cl fcl <-> exists k, in_range d k /\ cl = Lp v k BOT :: map (fun p => Lp r 0 (fst p)) (filter (tests k) (mapi pair nodes))).
  { intros cl. split.
    - intros H. apply (In_nth _ _ []) in H as (j & Hj & <-). exists (Z.of_nat j). split; [unfold in_range; lia|].
      rewrite <- E4 by (unfold in_range; lia). now rewrite Nat2Z.id.
    - intros (k & Hk & ->). rewrite <- E4 by auto. apply nth_In. unfold in_range in Hk. lia. }
  split.
  - intros cl Hcl l Hl. apply E5 in Hcl as (k & Hk & ->). destruct Hl as [<-|Hl].
    + left. exists k. auto.
    + apply in_map_iff in Hl as (p & <- & _). right. eauto.
  - intros tv. unfold scls_true. rewrite forallb_forall. split.
    + intros H k Hk. assert (X := H _ (proj2 (E5 _) (ex_intro _ k (conj Hk eq_refl)))).
      rewrite scl_cons, slit_Lp, orb_true_iff, scl_or in X. destruct X as [X|(l & Hl & Ht)]; auto.
      right. apply in_map_iff in Hl as ([i n] & <- & Hp). apply filter_In in Hp as [Hp Ht'].
      apply In_mapi in Hp as (i' & n' & Hi' & Hn' & [= <- <-]). unfold tests in Ht'. simpl in Ht'.
      apply andb_true_iff in Ht' as [L F]. apply negb_true_iff in L. apply Z.eqb_eq in F. exists i, n. auto.
    + intros H cl Hcl. apply E5 in Hcl as (k & Hk & ->). rewrite scl_cons, slit_Lp, orb_true_iff, scl_or.
      destruct (H k Hk) as [X|(i & n & Hi & Hn & L & F & Ht)]; auto. right. exists (Lp r 0 i). split; auto.
      apply in_map_iff. exists (i, n). split; auto. apply filter_In. split.
      * apply In_mapi. exists i, n. auto.
      * unfold tests. simpl. rewrite L, F, Z.eqb_refl. reflexivity.
Qed.

Lemma isnode_sem_path : forall tv v r e fcl, rep d tv v e -> isnode_fcl (Z.of_nat d) nodes v r = Ok fcl ->
  reached gzN goN tv r e -> (scls_true tv fcl = true <-> forall k, in_range d k -> feat e k = BOT \/ In k (path_feats e t)).
Proof.
  intros tv v r e fcl H E R. destruct (isnode_fcl_ok v r) as (fcl' & E' & _ & S).
  assert (fcl' = fcl) by congruence. subst. rewrite S.
  split; intros G k Hk; specialize (G k Hk).
  - rewrite (rep_BOT _ _ _ _ _ H Hk), Z.eqb_eq in G. destruct (Z.eq_dec (feat e k) BOT) as [|N]; auto.
    right. destruct G as [G|(i & n & Hi & Hn & L & F & Ht)]; [contradiction|].
    apply (reachN_path d e t k (proj1 H) dt_nodup Hk N). exists i, (zChild n), (oChild n). split.
    + apply inb_In. unfold reachN. rewrite <- R; auto. eapply nodes_in; eauto.
    + apply (splits_iff nodes); [apply dt_laid|]. split; [eapply nodes_in; eauto|]. exists n. auto.
  - rewrite (rep_BOT _ _ _ _ _ H Hk), Z.eqb_eq. destruct (Z.eq_dec (feat e k) BOT) as [|N]; auto.
    right. destruct G as [G|G]; [contradiction|].
    apply (reachN_path d e t k (proj1 H) dt_nodup Hk N) in G as (i & z & o & Hi & Hs).
    apply (splits_iff nodes) in Hs as (Hp & n & Hn & L & F & _ & _); [|apply dt_laid].
    exists i, n. pose proof (laid_out_range _ _ dt_laid) as Rg. rewrite Forall_forall in Rg. specialize (Rg i Hp).
    repeat split; auto; try lia. rewrite R by auto. apply inb_In. exact Hi.
Qed.

(* ---- allcomp.Var ---- *)

Definition allcomp_reach (v r : string) (i : Z) (n : node) : list sclause :=
  [[Ln v (nFeat n) ZERO; Ln r 0 i; Lp r 0 (zChild n)];
       [Ln v (nFeat n) ONE; Ln r 0 i; Lp r 0 (oChild n)];
       [Ln v (nFeat n) BOT; Ln r 0 i; Lp r 0 (zChild n)];
       [Ln v (nFeat n) BOT; Ln r 0 i; Lp r 0 (oChild n)];
       [Ln r 0 (oChild n); Lp r 0 i];
       [Ln r 0 (oChild n); Lp v (nFeat n) ONE; Lp v (nFeat n) BOT];
       [Ln r 0 (zChild n); Lp r 0 i];
       [Ln r 0 (zChild n); Lp v (nFeat n) ZERO; Lp v (nFeat n) BOT]].

Lemma allcomp_reach_ok : forall tv v r e i n, rep d tv v e -> in_range d (nFeat n) ->
  (scls_true tv (allcomp_reach v r i n) = true <->
   set_cond (fun p => tv (r, 0, p)) gzA goA e i (nFeat n) (zChild n) (oChild n)).
Proof.
  intros tv v r e i n H Hf. unfold allcomp_reach, set_cond, gzA, goA. lits.
  rewrite (rep_ZERO _ _ _ _ _ H Hf), (rep_ONE _ _ _ _ _ H Hf), (rep_BOT _ _ _ _ _ H Hf).
  destruct (tv (r, 0, i)), (tv (r, 0, zChild n)), (tv (r, 0, oChild n)); feat3 H (nFeat n); simpl; split;
    try discriminate; auto; intros [? ?]; discriminate.
Qed.

Lemma allcomp_nf : forall v r b, Forall (Forall no_from) (mapi (allcomp_node v r b) nodes).
Proof.
  intros. apply Forall_forall. intros x Hx. apply In_mapi in Hx as (i & n & _ & _ & ->).
  unfold allcomp_node. destruct (IsLeaf n); [destruct (eqb (nValue n) b)|]; repeat constructor.
Qed.
Lemma nf_concat : forall l : list (list emit), Forall (Forall no_from) l -> Forall no_from (concat l).
Proof. intros l H. induction H; simpl; auto. apply Forall_app; auto. Qed.

Lemma allcomp_cons : forall tv v r e b, rep d tv v e ->
  (scls_true tv (cons_ (ECons [[Lp r 0 0]] :: concat (mapi (allcomp_node v r b) nodes))) = true
   <-> reached gzA goA tv r e).
Proof.
  intros tv v r e b H. pose proof (allcomp_nf v r b) as NF.
  change (ECons [[Lp r 0 0]] :: ?l) with ([ECons [[Lp r 0 0]]] ++ l).
  rewrite cons_app by (now apply nf_concat). rewrite cons_concat, map_mapi by auto.
  rewrite scls_true_app, andb_true_iff, scls_mapi, <- reached_iff, <- split_conds.
  apply and_iff2.
  - unfold cons_. simpl. lits. reflexivity.
  - split.
    + intros G i n Hi Hn Hl. rewrite <- (allcomp_reach_ok tv v r e i n H (inner_feat i n Hi Hn Hl)).
      specialize (G i n Hi Hn). unfold allcomp_node in G. rewrite Hl in G. exact G.
    + intros G i n Hi Hn. unfold allcomp_node. destruct (IsLeaf n) eqn:Hl; [destruct (eqb (nValue n) b); reflexivity|].
      apply (allcomp_reach_ok tv v r e i n H (inner_feat i n Hi Hn Hl)). auto.
Qed.

Lemma allcomp_sem_allc : forall tv v r e b, rep d tv v e -> reached gzA goA tv r e ->
  (scls_true tv (sems (ECons [[Lp r 0 0]] :: concat (mapi (allcomp_node v r b) nodes))) = true
   <-> allc b e t = true).
Proof.
  intros tv v r e b H R. pose proof (allcomp_nf v r b) as NF.
  change (ECons [[Lp r 0 0]] :: ?l) with ([ECons [[Lp r 0 0]]] ++ l).
  rewrite sems_app by (now apply nf_concat). rewrite sems_concat, map_mapi by auto.
  rewrite scls_true_app, andb_true_iff, scls_mapi.
  rewrite <- (reachA_allc d b e t (proj1 H) dt_nodup), <- leaf_conds.
  split.
  - intros [_ G] i n Hi Hn Hl Hv. specialize (G i n Hi Hn). unfold allcomp_node in G. rewrite Hl, Hv in G.
    revert G. unfold sems. simpl. lits. rewrite R by (eapply nodes_in; eauto). apply negb_true_iff.
  - intros G. split; [reflexivity|]. intros i n Hi Hn. unfold allcomp_node. destruct (IsLeaf n) eqn:Hl; [|reflexivity].
    destruct (eqb (nValue n) b) eqn:Hv; [reflexivity|]. unfold sems. simpl. lits.
    rewrite R by (eapply nodes_in; eauto). apply negb_true_iff. apply (G i n); auto.
Qed.

End Tree.

Lemma isnode_sem : forall m t, is_dtree m t -> forall tv v r e fcl, rep (Dim m) tv v e -> isnode_fcl (Z.of_nat (Dim m)) (Nodes m) v r = Ok fcl ->
  reached t gzN goN tv r e -> (scls_true tv fcl = true <-> is_node (Dim m) t e).
Proof.
  intros m t DT tv v r e fcl H E R. rewrite (isnode_sem_path m t (dtree_tree m t DT) tv v r e fcl H E R).
  symmetry. apply is_node_path; [apply DT|apply H].
Qed.
Lemma allcomp_sem : forall m t, is_dtree m t -> forall tv v r e b, rep (Dim m) tv v e -> reached t gzA goA tv r e ->
  (scls_true tv (sems (ECons [[Lp r 0 0]] :: concat (mapi (allcomp_node v r b) (Nodes m)))) = true
   <-> all_comp (Dim m) t b e).
Proof.
  intros m t DT tv v r e b H R. rewrite (allcomp_sem_allc m t (dtree_tree m t DT) tv v r e b H R).
  symmetry. apply (all_comp_allc (Dim m) b t [] e); [apply DT|apply H].
Qed.
