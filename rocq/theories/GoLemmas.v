(* Facts about strconv.Itoa, strconv.Atoi, bytes.Split and strings. *)
From Verif Require Import GoBase.
From Coq Require Import Decimal DecimalString DecimalZ DecimalPos DecimalFacts.
Local Open Scope string_scope.
Local Open Scope Z_scope.

(* ---- strings ---- *)

Lemma sapp_nil_r : forall s, s ++ "" = s.
Proof. induction s; simpl; congruence. Qed.
Lemma sapp_assoc : forall a b c, (a ++ b) ++ c = a ++ (b ++ c).
Proof. induction a; simpl; intros; congruence. Qed.

Fixpoint all_chars (p : ascii -> bool) (s : string) : bool :=
  match s with EmptyString => true | String a r => p a && all_chars p r end.

Lemma all_chars_app : forall p a b,
  all_chars p (a ++ b) = all_chars p a && all_chars p b.
Proof. induction a; simpl; intros; auto. rewrite IHa. apply andb_assoc. Qed.

(* ---- itoa ---- *)

Definition is_digit (a : ascii) : bool :=
  match digit_of a with Some _ => true | None => false end.
Definition numeral_char (a : ascii) : bool := is_digit a || Ascii.eqb a "-"%char.

Lemma uint_digits : forall u, all_chars is_digit (NilEmpty.string_of_uint u) = true.
Proof. induction u; simpl; auto. Qed.

Lemma uint_numeral : forall u, all_chars numeral_char (NilEmpty.string_of_uint u) = true.
Proof. induction u; simpl; auto. Qed.

Lemma itoa_chars : forall z, all_chars numeral_char (itoa z) = true.
Proof.
  intros z. unfold itoa, NilZero.string_of_int, NilZero.string_of_uint.
  destruct (Z.to_int z) as [u|u]; destruct u; auto; try apply uint_numeral;
    simpl; apply uint_numeral.
Qed.

Lemma itoa_nonempty : forall z, itoa z <> "".
Proof.
  intros z. unfold itoa, NilZero.string_of_int, NilZero.string_of_uint.
  destruct (Z.to_int z) as [u|u]; destruct u; simpl; discriminate.
Qed.

Lemma to_int_not_nil : forall z, Z.to_int z <> Pos Nil /\ Z.to_int z <> Neg Nil.
Proof.
  intros [|p|p]; simpl; split; try discriminate; intros H; injection H as H;
    apply (Unsigned.to_uint_nonnil p); exact H.
Qed.

(* The decimal reader of the standard library reads back what itoa writes. *)
Lemma int_of_itoa : forall z,
  option_map Z.of_int (NilZero.int_of_string (itoa z)) = Some z.
Proof.
  intros z. unfold itoa. destruct (to_int_not_nil z).
  rewrite NilZero.isi by auto. simpl. now rewrite DecimalZ.of_to.
Qed.

Lemma itoa_inj : forall a b, itoa a = itoa b -> a = b.
Proof.
  intros a b H. pose proof (int_of_itoa a) as Ha. rewrite H, int_of_itoa in Ha. congruence.
Qed.

(* ---- atoi ---- *)

Lemma digits_val_uint_acc : forall u acc,
  digits_val (NilEmpty.string_of_uint u) (Zpos acc) = Some (Zpos (Pos.of_uint_acc u acc)).
Proof.
  induction u; intros acc; try reflexivity;
    cbn [NilEmpty.string_of_uint digits_val Pos.of_uint_acc];
    match goal with |- context [digit_of ?a] =>
      let v := eval vm_compute in (digit_of a) in change (digit_of a) with v end;
    cbv match; rewrite <- IHu; f_equal; lia.
Qed.

Lemma digits_val_uint : forall u,
  digits_val (NilEmpty.string_of_uint u) 0 = Some (Z.of_uint u).
Proof.
  unfold Z.of_uint.
  induction u; try reflexivity;
    cbn [NilEmpty.string_of_uint digits_val Pos.of_uint];
    match goal with |- context [digit_of ?a] =>
      let v := eval vm_compute in (digit_of a) in change (digit_of a) with v end;
    cbv match; try exact IHu; simpl Z.mul; simpl Z.add; rewrite digits_val_uint_acc;
    reflexivity.
Qed.

Definition int64 (z : Z) : Prop := - 2 ^ 63 <= z <= 2 ^ 63 - 1.

Definition atoi_finish (s : string) (neg : bool) (body : string) : res Z :=
    match body with
    | EmptyString => Err (atoi_err s)
    | _ =>
        match digits_val body 0 with
        | None => Err (atoi_err s)
        | Some v =>
            let z := if neg then - v else v in
            if (- 2 ^ 63 <=? z) && (z <=? 2 ^ 63 - 1) then Ok z
            else Err (atoi_err s)
        end
    end.

Lemma finish_uint : forall s neg u, u <> Nil ->
  let z := if neg : bool then - Z.of_uint u else Z.of_uint u in
  int64 z ->
  atoi_finish s neg (NilEmpty.string_of_uint u) = Ok z.
Proof.
  intros s neg u Hu z Hz. unfold atoi_finish.
  rewrite digits_val_uint. fold z.
  assert (E : (- 2 ^ 63 <=? z) && (z <=? 2 ^ 63 - 1) = true).
  { apply andb_true_iff; split; apply Z.leb_le; apply Hz. }
  cbv zeta. rewrite E.
  destruct u; auto; congruence.
Qed.

Lemma atoi_itoa : forall z, int64 z -> atoi (itoa z) = Ok z.
Proof.
  intros z Hz. destruct (to_int_not_nil z) as [Hp Hn].
  pose proof (DecimalZ.of_to z) as Hof. unfold itoa.
  destruct (Z.to_int z) as [u|u] eqn:E; simpl in Hof.
  - assert (Hu : u <> Nil) by congruence.
    assert (F : atoi_finish (NilEmpty.string_of_uint u) false (NilEmpty.string_of_uint u) = Ok z).
    { rewrite (finish_uint _ false u); auto; [now rewrite Hof|now rewrite Hof]. }
    unfold NilZero.string_of_int, NilZero.string_of_uint.
    destruct u; try congruence; simpl in F; exact F.
  - assert (Hu : u <> Nil) by congruence.
    assert (F : atoi_finish (String "-" (NilEmpty.string_of_uint u)) true (NilEmpty.string_of_uint u) = Ok z).
    { rewrite (finish_uint _ true u); auto; [now rewrite Hof|now rewrite Hof]. }
    unfold NilZero.string_of_int, NilZero.string_of_uint.
    destruct u; try congruence; simpl in F; exact F.
Qed.

(* ---- split ---- *)

Definition no_char (c : ascii) (s : string) : bool :=
  all_chars (fun a => negb (Ascii.eqb a c)) s.

Lemma split_nosep : forall c s, no_char c s = true -> split_on c s = [s].
Proof.
  induction s as [|a s IH]; simpl; intros H; auto.
  unfold no_char in H; simpl in H. apply andb_true_iff in H as [Ha Hs].
  apply negb_true_iff in Ha. rewrite Ha, IH by exact Hs. reflexivity.
Qed.

Lemma split_app : forall c a b, no_char c a = true ->
  split_on c (a ++ String c b) = a :: split_on c b.
Proof.
  induction a as [|x a IH]; simpl; intros b H.
  - now rewrite Ascii.eqb_refl.
  - unfold no_char in H; simpl in H. apply andb_true_iff in H as [Ha Hs].
    apply negb_true_iff in Ha. rewrite Ha, IH by exact Hs. reflexivity.
Qed.

Fixpoint sjoin (c : ascii) (l : list string) : string :=
  match l with
  | [] => ""
  | [s] => s
  | s :: r => s ++ String c (sjoin c r)
  end.

Lemma split_join : forall c l, l <> [] -> forallb (no_char c) l = true ->
  split_on c (sjoin c l) = l.
Proof.
  induction l as [|s [|s' l] IH]; intros Hn H; [congruence| |].
  - simpl in *. apply andb_true_iff in H as [H _]. now apply split_nosep.
  - cbn [sjoin]. cbn [forallb] in H. apply andb_true_iff in H as [H1 H2].
    rewrite split_app by auto. f_equal. apply IH; [discriminate|auto].
Qed.

Lemma no_char_weaken : forall (p : ascii -> bool) c s,
  all_chars p s = true -> p c = false -> no_char c s = true.
Proof.
  intros p c. unfold no_char. induction s as [|a s IH]; simpl; intros H Hc; auto.
  apply andb_true_iff in H as [Ha Hs]. rewrite IH by auto. rewrite andb_true_r.
  apply negb_true_iff. destruct (Ascii.eqb_spec a c); auto. congruence.
Qed.

Lemma itoa_no_sp : forall z, no_char sp (itoa z) = true.
Proof. intros. eapply no_char_weaken; [apply itoa_chars|reflexivity]. Qed.
Lemma itoa_no_nl : forall z, no_char nl (itoa z) = true.
Proof. intros. eapply no_char_weaken; [apply itoa_chars|reflexivity]. Qed.
Lemma itoa_no_us : forall z, no_char us (itoa z) = true.
Proof. intros. eapply no_char_weaken; [apply itoa_chars|reflexivity]. Qed.
