(* Generic lemmas for the proofs about the encoders. *)
From Verif Require Import GoBase Cnf Query Walk Atoms Spec Sym.
Local Open Scope Z_scope.
Local Open Scope list_scope.

(* ---- ranges and loops ---- *)

Lemma In_zrange : forall a b i, In i (zrange a b) <-> a <= i < b.
Proof.
  intros a b i. unfold zrange. rewrite in_map_iff. split.
  - intros (k & <- & Hk). apply in_seq in Hk. lia.
  - intros H. exists (Z.to_nat (i - a)). split; [lia|]. apply in_seq. lia.
Qed.

Lemma zrange_nil : forall a b, b <= a -> zrange a b = [].
Proof. intros. unfold zrange. replace (Z.to_nat (b - a)) with 0%nat by lia. reflexivity. Qed.

Lemma forallb_In : forall A (f : A -> bool) l, forallb f l = true <-> forall x, In x l -> f x = true.
Proof. intros. apply forallb_forall. Qed.

Lemma forallb_zrange : forall f a b,
  forallb f (zrange a b) = true <-> forall i, a <= i < b -> f i = true.
Proof.
  intros. rewrite forallb_forall. setoid_rewrite In_zrange. reflexivity.
Qed.

Lemma scls_flat_map : forall A t (g : A -> list sclause) l,
  scls_true t (flat_map g l) = forallb (fun a => scls_true t (g a)) l.
Proof.
  intros. unfold scls_true. induction l as [|a l IH]; simpl; auto.
  rewrite forallb_app, IH. reflexivity.
Qed.
Lemma scls_map : forall A t (g : A -> sclause) l,
  scls_true t (map g l) = forallb (fun a => scl_true t (g a)) l.
Proof. intros. unfold scls_true. induction l as [|a l IH]; simpl; auto. now rewrite IH. Qed.
Lemma scls_cons : forall t cl cls, scls_true t (cl :: cls) = scl_true t cl && scls_true t cls.
Proof. reflexivity. Qed.
Lemma scls_nil : forall t, scls_true t [] = true.
Proof. reflexivity. Qed.
Lemma scls_concat : forall t l, scls_true t (concat l) = forallb (scls_true t) l.
Proof. intros. unfold scls_true. induction l as [|a l IH]; simpl; auto. now rewrite forallb_app, IH. Qed.

Lemma slit_Lp : forall t v i x, slit_true t (Lp v i x) = t (v, i, x).
Proof. reflexivity. Qed.
Lemma slit_Ln : forall t v i x, slit_true t (Ln v i x) = negb (t (v, i, x)).
Proof. reflexivity. Qed.
Lemma scl_nil : forall t, scl_true t [] = false.
Proof. reflexivity. Qed.
Lemma scl_cons : forall t l cl, scl_true t (l :: cl) = slit_true t l || scl_true t cl.
Proof. reflexivity. Qed.

(* mapi over a list is a map over its indices *)
Lemma mapi_from_zrange : forall A B (f : Z -> A -> B) (dflt : A) l k,
  mapi_from k f l = map (fun i => f (k + i) (nth (Z.to_nat i) l dflt)) (zrange 0 (Z.of_nat (length l))).
Proof.
  intros A B f dflt l. induction l as [|a l IH]; intros k; simpl.
  - reflexivity.
  - unfold zrange. replace (Z.to_nat (Z.pos (Pos.of_succ_nat (length l)) - 0)) with (S (length l)) by lia.
    simpl. f_equal; [f_equal; lia|].
    rewrite IH. unfold zrange.
    replace (Z.to_nat (Z.of_nat (length l) - 0)) with (length l) by lia.
    rewrite <- seq_shift, !map_map. apply map_ext. intros n.
    rewrite !Z.add_0_l. rewrite !Nat2Z.id. simpl. f_equal. lia.
Qed.
Lemma mapi_zrange : forall A B (f : Z -> A -> B) (dflt : A) l,
  mapi f l = map (fun i => f i (nth (Z.to_nat i) l dflt)) (zrange 0 (Z.of_nat (length l))).
Proof. intros. unfold mapi. rewrite (mapi_from_zrange _ _ f dflt). apply map_ext. intros; reflexivity. Qed.

Lemma vget_feat : forall e i, vget e i = feat e i.
Proof. reflexivity. Qed.

(* ---- instances ---- *)

Lemma valid_feat_at : forall d e i, valid_inst d e -> valid_feat (feat e i).
Proof.
  intros d e i [_ H]. unfold feat. destruct (nth_in_or_default (Z.to_nat i) e BOT) as [Hin| ->].
  - rewrite Forall_forall in H. auto.
  - left; reflexivity.
Qed.

Lemma inst_ext : forall d e1 e2, length e1 = d -> length e2 = d ->
  (forall i, in_range d i -> feat e1 i = feat e2 i) -> e1 = e2.
Proof.
  intros d e1 e2 H1 H2 H. apply (nth_ext e1 e2 BOT BOT); [congruence|].
  intros n Hn. specialize (H (Z.of_nat n)). unfold feat in H. rewrite Nat2Z.id in H.
  apply H. unfold in_range. lia.
Qed.

(* ---- representation of an instance by a valuation ---- *)

(* At name w, t says exactly the features of e. *)
Definition rep (d : nat) (t : tval) (w : string) (e : inst) : Prop :=
  valid_inst d e /\
  forall i, in_range d i -> forall x, valid_feat x -> t (w, i, x) = (feat e i =? x).

Lemma rep_BOT : forall d t w e i, rep d t w e -> in_range d i -> t (w, i, BOT) = (feat e i =? BOT).
Proof. intros d t w e i [_ H] Hi. apply H; auto. left; auto. Qed.
Lemma rep_ZERO : forall d t w e i, rep d t w e -> in_range d i -> t (w, i, ZERO) = (feat e i =? ZERO).
Proof. intros d t w e i [_ H] Hi. apply H; auto. right; left; auto. Qed.
Lemma rep_ONE : forall d t w e i, rep d t w e -> in_range d i -> t (w, i, ONE) = (feat e i =? ONE).
Proof. intros d t w e i [_ H] Hi. apply H; auto. right; right; auto. Qed.

(* decoding: the value of name w in t *)
Definition decode (d : nat) (t : tval) (w : string) : inst :=
  map (fun i => if t (w, i, ONE) then ONE else if t (w, i, ZERO) then ZERO else BOT) (indices_below d).

Definition exactly_one (a b c : bool) : Prop :=
  (a = true /\ b = false /\ c = false) \/ (a = false /\ b = true /\ c = false) \/
  (a = false /\ b = false /\ c = true).

Lemma feat_map_below : forall d (f : Z -> FeatV) i, in_range d i ->
  feat (map f (indices_below d)) i = f i.
Proof.
  intros d f i Hi. unfold feat, indices_below, in_range in *.
  rewrite (nth_indep _ BOT (f 0)) by (rewrite !map_length, seq_length; lia).
  rewrite map_nth, (map_nth Z.of_nat _ 0%nat), seq_nth by lia. f_equal. lia.
Qed.

Lemma decode_feat : forall d t w i, in_range d i ->
  feat (decode d t w) i = if t (w, i, ONE) then ONE else if t (w, i, ZERO) then ZERO else BOT.
Proof. intros. unfold decode. now rewrite feat_map_below. Qed.

Lemma decode_valid : forall d t w, valid_inst d (decode d t w).
Proof.
  intros. split.
  - unfold decode, indices_below. now rewrite !map_length, seq_length.
  - unfold decode. rewrite Forall_map. apply Forall_forall. intros i _.
    destruct (t (w, i, ONE)); [right; right; auto|]. destruct (t (w, i, ZERO)); [right; left; auto|left; auto].
Qed.

Lemma decode_rep : forall d t w,
  (forall i, in_range d i -> exactly_one (t (w, i, BOT)) (t (w, i, ZERO)) (t (w, i, ONE))) ->
  rep d t w (decode d t w).
Proof.
  intros d t w H. split; [apply decode_valid|]. intros i Hi x Hx.
  rewrite decode_feat by auto. destruct (H i Hi) as [(A & B & C)|[(A & B & C)|(A & B & C)]];
    rewrite ?A, ?B, ?C; destruct Hx as [->|[->| ->]]; simpl; auto.
Qed.

Lemma rep_decode : forall d t w e, rep d t w e -> decode d t w = e.
Proof.
  intros d t w e H. apply (inst_ext d).
  - apply (decode_valid d t w).
  - apply H.
  - intros i Hi. rewrite decode_feat by auto. rewrite (rep_ONE _ _ _ _ _ H Hi), (rep_ZERO _ _ _ _ _ H Hi).
    destruct (valid_feat_at d e i (proj1 H)) as [->|[->| ->]]; reflexivity.
Qed.

Lemma rep_exactly : forall d t w e i, rep d t w e -> in_range d i ->
  exactly_one (t (w, i, BOT)) (t (w, i, ZERO)) (t (w, i, ONE)).
Proof.
  intros d t w e i H Hi.
  rewrite (rep_BOT _ _ _ _ _ H Hi), (rep_ONE _ _ _ _ _ H Hi), (rep_ZERO _ _ _ _ _ H Hi).
  unfold exactly_one. destruct (valid_feat_at d e i (proj1 H)) as [->|[->| ->]]; simpl; auto.
Qed.

Ltac lits := cbv beta; rewrite ?scls_cons, ?scls_nil, ?scl_cons, ?scl_nil, ?slit_Lp, ?slit_Ln, ?orb_false_r, ?andb_true_r.

Lemma iff_forall_range : forall d (P Q : Z -> Prop),
  (forall i, in_range d i -> (P i <-> Q i)) ->
  ((forall i, 0 <= i < Z.of_nat d -> P i) <-> (forall i, in_range d i -> Q i)).
Proof. intros d P Q H. split; intros H' i Hi; apply H; auto. Qed.

Lemma indices_below_zrange : forall d, indices_below d = zrange 0 (Z.of_nat d).
Proof.
  intros. unfold indices_below, zrange. rewrite Z.sub_0_r, Nat2Z.id. apply map_ext. intros; lia.
Qed.
Lemma forallb_map : forall A B (f : B -> bool) (g : A -> B) l,
  forallb f (map g l) = forallb (fun a => f (g a)) l.
Proof. induction l as [|a l IH]; simpl; auto. now rewrite IH. Qed.
