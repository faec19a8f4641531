(* Exactness of the encoders without auxiliary variables: subsumption, full,
   cons, WithVar. *)
From Verif Require Import GoBase Cnf Query Walk Atoms Logop Spec Sym AtomBase.
Local Open Scope Z_scope.
Local Open Scope list_scope.

Ltac feat3 H i :=
  let E := fresh "Ef" in
  destruct (valid_feat_at _ _ i (proj1 H)) as [E|[E|E]]; rewrite ?E in *; clear E.
Ltac cfeat3 H i :=
  let E := fresh "Ef" in
  destruct (valid_feat_at _ _ i H) as [E|[E|E]]; rewrite ?E in *; clear E.

Lemma subs_vv_ok : forall d t v1 v2 e1 e2, rep d t v1 e1 -> rep d t v2 e2 ->
  (scls_true t (subs_vv (Z.of_nat d) v1 v2) = true <-> subsumed d e1 e2).
Proof.
  intros d t v1 v2 e1 e2 H1 H2. unfold subs_vv. rewrite scls_flat_map, forallb_zrange.
  apply iff_forall_range. intros i Hi. lits.
  rewrite (rep_ONE _ _ _ _ _ H1 Hi), (rep_ONE _ _ _ _ _ H2 Hi), (rep_ZERO _ _ _ _ _ H1 Hi), (rep_ZERO _ _ _ _ _ H2 Hi).
  feat3 H1 i; feat3 H2 i; simpl; split; auto; try discriminate; intros [?|?]; discriminate.
Qed.

Lemma subs_vc_ok : forall d t v e c, rep d t v e -> valid_inst d c ->
  (scls_true t (subs_vc v c) = true <-> subsumed d e c).
Proof.
  intros d t v e c H1 H2. unfold subs_vc. rewrite (mapi_zrange _ _ _ BOT), scls_concat.
  rewrite (proj1 H2). rewrite forallb_map, forallb_zrange.
  apply iff_forall_range. intros i Hi. fold (feat c i).
  destruct (valid_feat_at d c i H2) as [E|[E|E]]; rewrite E; simpl; lits;
  rewrite ?(rep_ONE _ _ _ _ _ H1 Hi), ?(rep_ZERO _ _ _ _ _ H1 Hi);
  feat3 H1 i; simpl; split; auto; try discriminate; intros [?|?]; discriminate.
Qed.

Lemma subs_cv_ok : forall d t v e c, rep d t v e -> valid_inst d c ->
  (scls_true t (subs_cv c v) = true <-> subsumed d c e).
Proof.
  intros d t v e c H1 H2. unfold subs_cv. rewrite (mapi_zrange _ _ _ BOT), scls_concat.
  rewrite (proj1 H2). rewrite forallb_map, forallb_zrange.
  apply iff_forall_range. intros i Hi. fold (feat c i).
  destruct (valid_feat_at d c i H2) as [E|[E|E]]; rewrite E; simpl; lits;
  rewrite ?(rep_ONE _ _ _ _ _ H1 Hi), ?(rep_ZERO _ _ _ _ _ H1 Hi);
  feat3 H1 i; simpl; split; auto; try discriminate; intros [?|?]; discriminate.
Qed.

Lemma forallb_combine : forall (f : FeatV * FeatV -> bool) d a b, length a = d -> length b = d ->
  (forallb f (combine a b) = true <-> forall i, in_range d i -> f (feat a i, feat b i) = true).
Proof.
  intros f d a b Ha Hb. rewrite forallb_forall. split.
  - intros H i Hi. apply H. unfold feat. rewrite <- combine_nth by congruence.
    apply nth_In. rewrite combine_length. unfold in_range in Hi. lia.
  - intros H x Hx. apply (In_nth _ _ (BOT, BOT)) in Hx as (n & Hn & <-).
    rewrite combine_length in Hn. rewrite combine_nth by congruence.
    specialize (H (Z.of_nat n)). unfold feat in H. rewrite Nat2Z.id in H. apply H.
    unfold in_range. lia.
Qed.

Lemma subs_cc_ok : forall d a b, valid_inst d a -> valid_inst d b ->
  (subs_cc a b = true <-> subsumed d a b).
Proof.
  intros d a b Ha Hb. unfold subs_cc. rewrite (forallb_combine _ d) by (apply Ha || apply Hb).
  unfold subsumed. split; intros H i Hi; specialize (H i Hi); simpl in *;
    rewrite orb_true_iff, !Z.eqb_eq in *; auto.
Qed.

Lemma full_v_ok : forall d t v e, rep d t v e ->
  (scls_true t (full_v (Z.of_nat d) v) = true <-> full d e).
Proof.
  intros d t v e H. unfold full_v. rewrite scls_map, forallb_zrange.
  apply iff_forall_range. intros i Hi. lits. rewrite (rep_BOT _ _ _ _ _ H Hi).
  rewrite negb_true_iff, Z.eqb_neq. reflexivity.
Qed.

Lemma existsb_feat : forall (f : FeatV -> bool) d a, length a = d ->
  (existsb f a = true <-> exists i, in_range d i /\ f (feat a i) = true).
Proof.
  intros f d a Ha. rewrite existsb_exists. split.
  - intros (x & Hx & Hf). apply (In_nth _ _ BOT) in Hx as (n & Hn & <-).
    exists (Z.of_nat n). unfold in_range, feat. rewrite Nat2Z.id. split; auto. lia.
  - intros (i & Hi & Hf). exists (feat a i). split; auto. unfold feat. apply nth_In.
    unfold in_range in Hi. lia.
Qed.

Lemma full_c_ok : forall d c, length c = d -> (full_c c = true <-> full d c).
Proof.
  intros d c Hc. unfold full_c, full. rewrite negb_true_iff, <- not_true_iff_false, (existsb_feat _ d) by auto.
  split.
  - intros H i Hi E. apply H. exists i. split; auto. now apply Z.eqb_eq.
  - intros H (i & Hi & E). apply Z.eqb_eq in E. apply (H i Hi E).
Qed.

Lemma IsFull_ok : forall d c, length (cVal c) = d -> (IsFull c = true <-> full d (cVal c)).
Proof.
  intros d c Hc. unfold IsFull. rewrite <- (full_c_ok d) by auto. unfold full_c.
  rewrite negb_true_iff. induction (cVal c) as [|x l IH] in d, Hc |- *; simpl.
  - split; auto.
  - rewrite andb_true_iff, orb_false_iff, negb_true_iff. rewrite (IH (length l)) by auto. reflexivity.
Qed.

Lemma cons_vv_ok : forall d t v1 v2 e1 e2, rep d t v1 e1 -> rep d t v2 e2 ->
  (scls_true t (cons_vv (Z.of_nat d) v1 v2) = true <-> consistent d e1 e2).
Proof.
  intros d t v1 v2 e1 e2 H1 H2. unfold cons_vv. rewrite scls_flat_map, forallb_zrange.
  apply iff_forall_range. intros i Hi. lits.
  rewrite (rep_ONE _ _ _ _ _ H1 Hi), (rep_ONE _ _ _ _ _ H2 Hi), (rep_ZERO _ _ _ _ _ H1 Hi), (rep_ZERO _ _ _ _ _ H2 Hi).
  feat3 H1 i; feat3 H2 i; simpl; split; auto; try discriminate; intros [?|[?|?]]; discriminate.
Qed.

Lemma cons_vc_ok : forall d t v e c, rep d t v e -> valid_inst d c ->
  (scls_true t (cons_vc v c) = true <-> consistent d e c).
Proof.
  intros d t v e c H1 H2. unfold cons_vc. rewrite (mapi_zrange _ _ _ BOT), scls_concat.
  rewrite (proj1 H2). rewrite forallb_map, forallb_zrange.
  apply iff_forall_range. intros i Hi. fold (feat c i).
  destruct (valid_feat_at d c i H2) as [E|[E|E]]; rewrite E; simpl; lits;
  rewrite ?(rep_ONE _ _ _ _ _ H1 Hi), ?(rep_ZERO _ _ _ _ _ H1 Hi);
  feat3 H1 i; simpl; split; auto; try discriminate; intros [?|[?|?]]; discriminate.
Qed.

Lemma consistent_sym : forall d a b, consistent d a b <-> consistent d b a.
Proof. intros; split; intros H i Hi; destruct (H i Hi) as [?|[?|?]]; auto. Qed.

Lemma cons_cc_ok : forall d a b, valid_inst d a -> valid_inst d b ->
  (cons_cc a b = true <-> consistent d a b).
Proof.
  intros d a b Ha Hb. unfold cons_cc. rewrite (forallb_combine _ d) by (apply Ha || apply Hb).
  unfold consistent. split; intros H i Hi; specialize (H i Hi); simpl in *;
    cfeat3 Ha i; cfeat3 Hb i; simpl in *; auto; try discriminate; destruct H as [?|[?|?]]; discriminate.
Qed.

(* WithVar's clauses say: exactly one value per feature. *)
Lemma cons_fold_con : forall (f : Z -> list sclause) l acc,
  fold_left emit_con (map (fun i => ECons (f i)) l) acc = acc ++ flat_map f l.
Proof.
  induction l as [|i l IH]; intros acc; simpl; [now rewrite app_nil_r|]. rewrite IH. now rewrite app_assoc.
Qed.
Lemma cons_fold_sem : forall (f : Z -> list sclause) l acc,
  fold_left emit_sem (map (fun i => ECons (f i)) l) acc = acc.
Proof. induction l as [|i l IH]; intros acc; simpl; auto. Qed.

Lemma withvar_sems : forall d v, sems (withvar_emits d v) = [].
Proof. intros. unfold sems, withvar_emits. simpl. apply cons_fold_sem. Qed.

Lemma withvar_ok : forall d t v,
  scls_true t (cons_ (withvar_emits (Z.of_nat d) v)) = true <->
  forall i, in_range d i -> exactly_one (t (v, i, BOT)) (t (v, i, ZERO)) (t (v, i, ONE)).
Proof.
  intros. unfold cons_, withvar_emits. simpl. rewrite cons_fold_con, scls_true_app, andb_true_iff.
  rewrite scls_map, scls_flat_map, !forallb_zrange. split.
  - intros [H1 H2] i Hi. specialize (H1 i Hi). specialize (H2 i Hi).
    revert H1 H2. lits. unfold exactly_one.
    destruct (t (v, i, BOT)), (t (v, i, ZERO)), (t (v, i, ONE)); simpl; intros; try discriminate; auto.
  - intros H. split; intros i Hi; specialize (H i Hi); revert H; lits; unfold exactly_one;
    destruct (t (v, i, BOT)), (t (v, i, ZERO)), (t (v, i, ONE)); simpl; intuition discriminate.
Qed.

Lemma withvar_triples : forall d v u, In u (triples (withvar_emits d v)) <->
  exists i x, 0 <= i < d /\ valid_feat x /\ u = (v, i, x).
Proof.
  intros d v u. unfold triples, withvar_emits. simpl. rewrite in_app_iff.
  assert (G1 : In u (clause_vars (map (fun i => [Lp v i ZERO; Lp v i ONE; Lp v i BOT]) (zrange 0 d)))
               <-> exists i x, 0 <= i < d /\ valid_feat x /\ u = (v, i, x)).
  { unfold clause_vars. rewrite in_map_iff. split.
    - intros (l & <- & Hl). apply in_concat in Hl as (cl & Hc & Hl). apply in_map_iff in Hc as (i & <- & Hi).
      apply In_zrange in Hi. simpl in Hl.
      destruct Hl as [<-|[<-|[<-|[]]]]; simpl; do 2 eexists; (split; [exact Hi|]); (split; [|reflexivity]); unfold valid_feat; auto.
    - intros (i & x & Hi & Hx & ->). exists (true, (v, i, x)). split; auto. apply in_concat.
      exists [Lp v i ZERO; Lp v i ONE; Lp v i BOT]. split.
      + apply in_map_iff. exists i. split; auto. now apply In_zrange.
      + destruct Hx as [->|[->| ->]]; simpl; auto. }
  rewrite G1. split; [|auto]. intros [H|H]; auto.
  apply in_flat_map in H as (e & He & Hu). apply in_map_iff in He as (i & <- & Hi).
  apply In_zrange in Hi. simpl in Hu.
  repeat (destruct Hu as [<-|Hu]; [do 2 eexists; (split; [exact Hi|]); (split; [|reflexivity]); unfold valid_feat; auto|]).
  contradiction.
Qed.
