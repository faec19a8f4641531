(* An independent DIMACS CNF reader and the proof that ToBytes/ToFile write
   what it reads. *)
From Verif Require Import GoBase GoLemmas Cnf CnfSem.
From Coq Require Import DecimalString.
Local Open Scope string_scope.
Local Open Scope Z_scope.

(* ---- specification: a DIMACS reader ---- *)

Definition is_blank (a : ascii) : bool := Ascii.eqb a nl || Ascii.eqb a sp.

(* Blank-separated words of a text. *)
Fixpoint words (s cur : string) : list string :=
  match s with
  | EmptyString => if String.eqb cur "" then [] else [cur]
  | String a r =>
      if is_blank a then
        (if String.eqb cur "" then words r "" else cur :: words r "")
      else words r (cur ++ String a "")
  end.

Definition read_int (w : string) : option Z :=
  option_map Z.of_int (NilZero.int_of_string w).

Fixpoint read_ints (ws : list string) : option (list Z) :=
  match ws with
  | [] => Some []
  | w :: r =>
      match read_int w, read_ints r with
      | Some z, Some zs => Some (z :: zs)
      | _, _ => None
      end
  end.

(* Cut a list of numbers into clauses at each 0; None if it does not end with
   a 0. *)
Fixpoint cut (zs cur : list Z) : option (list (list Z)) :=
  match zs with
  | [] => match cur with [] => Some [] | _ => None end
  | z :: r =>
      if z =? 0 then option_map (cons cur) (cut r [])
      else cut r (cur ++ [z])%list
  end.

(* The first line and the rest of a text. *)
Fixpoint first_line (s : string) : string * string :=
  match s with
  | EmptyString => ("", "")
  | String a r =>
      if Ascii.eqb a nl then ("", r)
      else let (l, rest) := first_line r in (String a l, rest)
  end.

(* (declared variables, declared clauses, clauses) *)
Definition read_dimacs (s : string) : option (Z * Z * list (list Z)) :=
  let (h, body) := first_line s in
  match words h "" with
  | [p; f; nv; nc] =>
      if String.eqb p "p" && String.eqb f "cnf" then
        match read_int nv, read_int nc, read_ints (words body "") with
        | Some v, Some n, Some zs =>
            match cut zs [] with
            | Some cls => Some (v, n, cls)
            | None => None
            end
        | _, _, _ => None
        end
      else None
  | _ => None
  end.

(* ---- proofs ---- *)

Definition solid (s : string) : bool := all_chars (fun a => negb (is_blank a)) s.

Lemma words_run : forall w s cur, solid w = true ->
  words (w ++ s) cur = words s (cur ++ w).
Proof.
  induction w as [|a w IH]; intros s cur H; simpl.
  - now rewrite sapp_nil_r.
  - unfold solid in H; simpl in H. apply andb_true_iff in H as [Ha Hw].
    apply negb_true_iff in Ha. rewrite Ha, IH by exact Hw.
    rewrite sapp_assoc. reflexivity.
Qed.

Lemma words_word : forall w a s, solid w = true -> w <> "" -> is_blank a = true ->
  words (w ++ String a s) "" = w :: words s "".
Proof.
  intros w a s H Hn Ha. rewrite words_run by auto. simpl. rewrite Ha.
  destruct (String.eqb_spec w ""); [congruence|reflexivity].
Qed.

Lemma words_last : forall w, solid w = true -> w <> "" -> words w "" = [w].
Proof.
  intros w H Hn. rewrite <- (sapp_nil_r w) at 1. rewrite words_run by auto. simpl.
  destruct (String.eqb_spec w ""); [congruence|reflexivity].
Qed.

Lemma itoa_solid : forall z, solid (itoa z) = true.
Proof.
  intros z. unfold solid. pose proof (itoa_chars z) as H.
  induction (itoa z) as [|a s IH]; simpl in *; auto.
  apply andb_true_iff in H as [Ha Hs]. rewrite IH by auto. rewrite andb_true_r.
  unfold is_blank. destruct (Ascii.eqb_spec a nl); [subst; discriminate|].
  destruct (Ascii.eqb_spec a sp); [subst; discriminate|]. reflexivity.
Qed.

Lemma clauseToDIMACS_cons : forall l cl,
  clauseToDIMACS (l :: cl) = itoa l ++ " " ++ clauseToDIMACS cl.
Proof.
  intros l cl. unfold clauseToDIMACS. simpl.
  assert (E : forall cl acc, fold_left (fun s v => s ++ itoa v ++ " ") cl acc
              = acc ++ fold_left (fun s v => s ++ itoa v ++ " ") cl "").
  { clear. induction cl as [|x cl IH]; intros acc; simpl.
    - now rewrite sapp_nil_r.
    - rewrite IH, (IH (itoa x ++ " ")). now rewrite sapp_assoc. }
  rewrite E. rewrite !sapp_assoc. reflexivity.
Qed.

Lemma words_clause : forall cl s,
  words (clauseToDIMACS cl ++ String nl s) "" = ((map itoa cl ++ ["0"]) ++ words s "")%list.
Proof.
  induction cl as [|l cl IH]; intros s.
  - reflexivity.
  - rewrite clauseToDIMACS_cons. rewrite !sapp_assoc. simpl (" " ++ _).
    rewrite words_word; auto using itoa_solid, itoa_nonempty.
    rewrite IH. reflexivity.
Qed.

Definition body_text (cls : list clause) : string :=
  fold_right (fun cl s => clauseToDIMACS cl ++ String nl s) "" cls.

Lemma fold_body : forall cls b,
  fold_left (fun b cl => b ++ clauseToDIMACS cl ++ newline) cls b = b ++ body_text cls.
Proof.
  induction cls as [|cl cls IH]; intros b; simpl.
  - now rewrite sapp_nil_r.
  - rewrite IH. rewrite !sapp_assoc. reflexivity.
Qed.

Lemma body_text_app : forall a b, body_text (a ++ b)%list = body_text a ++ body_text b.
Proof.
  induction a as [|cl a IH]; intros b; simpl; auto.
  rewrite IH. now rewrite sapp_assoc.
Qed.

Lemma ToBytes_eq : forall c,
  ToBytes c = dimacs_header c ++ body_text (sClauses c ++ cClauses c)%list.
Proof.
  intros c. unfold ToBytes. rewrite !fold_body, body_text_app. now rewrite sapp_assoc.
Qed.

Lemma words_body : forall cls,
  words (body_text cls) "" = concat (map (fun cl => map itoa cl ++ ["0"])%list cls).
Proof.
  induction cls as [|cl cls IH]; auto.
  change (body_text (cl :: cls)) with (clauseToDIMACS cl ++ String nl (body_text cls)).
  rewrite words_clause, IH. reflexivity.
Qed.

Lemma read_ints_app : forall a b za zb,
  read_ints a = Some za -> read_ints b = Some zb -> read_ints (a ++ b)%list = Some (za ++ zb)%list.
Proof.
  induction a as [|w a IH]; simpl; intros b za zb Ha Hb.
  - injection Ha as <-. exact Hb.
  - destruct (read_int w); [|discriminate]. destruct (read_ints a); [|discriminate].
    injection Ha as <-. rewrite (IH b l zb); auto.
Qed.

Lemma read_ints_itoa : forall l, read_ints (map itoa l) = Some l.
Proof.
  induction l as [|z l IH]; simpl; auto. unfold read_int. rewrite int_of_itoa, IH. reflexivity.
Qed.

Lemma read_ints_body : forall cls,
  read_ints (concat (map (fun cl => map itoa cl ++ ["0"])%list cls))
  = Some (concat (map (fun cl => cl ++ [0])%list cls)).
Proof.
  induction cls as [|cl cls IH]; simpl; auto.
  apply read_ints_app; auto. apply read_ints_app; [apply read_ints_itoa|reflexivity].
Qed.

Lemma cut_clause : forall cl cur rest, Forall (fun l => l <> 0) cl ->
  cut (cl ++ 0 :: rest)%list cur = option_map (cons (cur ++ cl)%list) (cut rest []).
Proof.
  induction cl as [|l cl IH]; intros cur rest H; simpl.
  - now rewrite app_nil_r.
  - inversion H as [|? ? H0 H']; subst.
    destruct (Z.eqb_spec l 0); [congruence|].
    rewrite IH by auto. now rewrite <- app_assoc.
Qed.

Lemma cut_body : forall cls, legal_clauses cls ->
  cut (concat (map (fun cl => cl ++ [0])%list cls)) [] = Some cls.
Proof.
  induction cls as [|cl cls IH]; intros H; simpl; auto.
  inversion H; subst. rewrite <- app_assoc. simpl.
  rewrite cut_clause by auto. rewrite IH by auto. reflexivity.
Qed.

Lemma first_line_app : forall a b, no_char nl a = true ->
  first_line (a ++ String nl b) = (a, b).
Proof.
  induction a as [|x a IH]; simpl; intros b H; auto.
  unfold no_char in H; simpl in H. apply andb_true_iff in H as [Hx Ha].
  apply negb_true_iff in Hx. rewrite Hx. rewrite IH by exact Ha. reflexivity.
Qed.

Theorem read_ToBytes : forall c,
  legal_clauses (sClauses c) -> legal_clauses (cClauses c) ->
  read_dimacs (ToBytes c)
  = Some (tv c, Z.of_nat (length (sClauses c) + length (cClauses c)),
          (sClauses c ++ cClauses c)%list).
Proof.
  intros c HS HC. rewrite ToBytes_eq. unfold read_dimacs, dimacs_header.
  set (n := Z.of_nat (length (sClauses c)) + Z.of_nat (length (cClauses c))).
  replace (("p cnf " ++ itoa (tv c) ++ " " ++ itoa n ++ newline)
           ++ body_text (sClauses c ++ cClauses c)%list)
    with (("p cnf " ++ itoa (tv c) ++ " " ++ itoa n)
          ++ String nl (body_text (sClauses c ++ cClauses c)%list))
    by (rewrite !sapp_assoc; reflexivity).
  rewrite first_line_app.
  2:{ unfold no_char. rewrite !all_chars_app. fold (no_char nl (itoa (tv c))).
      fold (no_char nl (itoa n)). rewrite !itoa_no_nl. reflexivity. }
  assert (W : words ("p cnf " ++ itoa (tv c) ++ " " ++ itoa n) ""
              = ["p"; "cnf"; itoa (tv c); itoa n]).
  { change (words ("p cnf " ++ itoa (tv c) ++ " " ++ itoa n) "")
      with ("p" :: "cnf" :: words (itoa (tv c) ++ String sp (itoa n)) "").
    rewrite words_word; auto using itoa_solid, itoa_nonempty.
    rewrite words_last; auto using itoa_solid, itoa_nonempty. }
  rewrite W. simpl (_ && _). cbv match.
  unfold read_int. rewrite !int_of_itoa.
  rewrite words_body, read_ints_body, cut_body.
  - unfold n. now rewrite Nat2Z.inj_add.
  - apply Forall_app; auto.
Qed.

(* ---- ToFile ---- *)

Lemma write_clauses_ok : forall cls wok k f k' f',
  write_clauses wok k f cls = inl (k', f') ->
  f' = f ++ body_text cls /\ k' = (k + length cls)%nat /\
  (forall i, (k <= i < k + length cls)%nat -> wok i = true).
Proof.
  induction cls as [|cl cls IH]; simpl; intros wok k f k' f' H.
  - injection H as <- <-. rewrite sapp_nil_r, Nat.add_0_r. repeat split; auto. intros; lia.
  - destruct (wok k) eqn:Hk; [|discriminate].
    apply IH in H as (-> & -> & H).
    split; [rewrite !sapp_assoc; reflexivity|]. split; [lia|].
    intros i Hi. destruct (Nat.eq_dec i k) as [->|]; auto. apply H; lia.
Qed.

Lemma write_clauses_complete : forall cls wok k f,
  (forall i, (k <= i < k + length cls)%nat -> wok i = true) ->
  write_clauses wok k f cls = inl ((k + length cls)%nat, f ++ body_text cls).
Proof.
  induction cls as [|cl cls IH]; simpl; intros wok k f H.
  - now rewrite sapp_nil_r, Nat.add_0_r.
  - rewrite (H k) by lia. rewrite IH by (intros; apply H; lia).
    f_equal. f_equal; [lia|]. rewrite !sapp_assoc; reflexivity.
Qed.

(* All writes succeed: header and one write per clause. *)
Definition all_writes (wok : nat -> bool) (c : CNF) : Prop :=
  forall i, (i <= length (sClauses c) + length (cClauses c))%nat -> wok i = true.

Theorem ToFile_ok : forall wok c, all_writes wok c -> ToFile true wok c = Ok (ToBytes c).
Proof.
  intros wok c H. unfold ToFile. rewrite (H 0%nat) by lia.
  rewrite write_clauses_complete by (intros; apply H; lia).
  rewrite write_clauses_complete by (intros; apply H; lia).
  rewrite ToBytes_eq, body_text_app. now rewrite sapp_assoc.
Qed.

Theorem ToFile_cases : forall create wok c,
  (exists e, ToFile create wok c = Err e) \/
  (create = true /\ all_writes wok c /\ ToFile create wok c = Ok (ToBytes c)).
Proof.
  intros create wok c.
  destruct create; [|left; eexists; reflexivity].
  unfold ToFile. destruct (wok 0%nat) eqn:H0; [|left; eexists; reflexivity].
  destruct (write_clauses wok 1 (dimacs_header c) (sClauses c)) as [[k f]|] eqn:E1;
    [|left; eexists; reflexivity].
  destruct (write_clauses wok k f (cClauses c)) as [[k2 f2]|] eqn:E2;
    [|left; eexists; reflexivity].
  right. apply write_clauses_ok in E1 as (-> & -> & W1).
  apply write_clauses_ok in E2 as (-> & -> & W2).
  split; auto. split.
  - intros i Hi. destruct i as [|i]; auto.
    destruct (Nat.le_gt_cases (S i) (length (sClauses c))).
    + apply W1; lia.
    + apply W2; lia.
  - rewrite ToBytes_eq, body_text_app. now rewrite sapp_assoc.
Qed.
