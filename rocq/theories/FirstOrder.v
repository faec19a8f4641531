(* First-order reading: when each variable is declared once and nothing is
   declared under a Not, WithVar means "there is". *)
From Verif Require Import GoBase GoLemmas Query Atoms Logop Spec Meaning Truth Block Sat.
Local Open Scope Z_scope.
Local Open Scope list_scope.

(* Variables are used under their declaration, a ForAllGuarded does not use the
   ID of one around it, no sub-query is nil. *)
Fixpoint closed (G ids : list string) (q : query) : Prop :=
  match q with
  | QNil => False
  | QAtom a => incl (vars_of a) G
  | QNot q => closed G ids q
  | QAnd q1 q2 | QOr q1 q2 => closed G ids q1 /\ closed G ids q2
  | QWith v q => closed (v :: G) ids q
  | QAll c q => ~ In (cID c) ids /\ closed G (cID c :: ids) q
  end.
Fixpoint plain_not (q : query) : Prop :=
  match q with
  | QNil | QAtom _ => True
  | QNot q => all_vars q = [] /\ plain_not q
  | QWith _ q | QAll _ q => plain_not q
  | QAnd q1 q2 | QOr q1 q2 => plain_not q1 /\ plain_not q2
  end.

Record fo_query (m : model) (t : tree) (q : query) : Prop := {
  fo_closed : closed [] [] q;
  fo_once : NoDup (all_vars q);
  fo_not : plain_not q;
  fo_components : components_ok m t [] q;
  fo_names : Forall no_sep (all_vars q) /\ Forall no_sep (all_ids q)
}.

(* ---- such queries are well-formed ---- *)

Lemma NoDup_app_inv : forall (A : Type) (a b : list A), NoDup (a ++ b) -> NoDup a /\ NoDup b /\ forall x, In x a -> ~ In x b.
Proof.
  induction a as [|x a IH]; intros b H; simpl in *.
  - split; [constructor|]. split; auto.
  - inversion H as [|y l H1 H2]; subst. destruct (IH b H2) as (A1 & A2 & A3). split; [constructor; auto; intros X; apply H1, in_or_app; auto|].
    split; auto. intros z [<-|Hz]; auto. intros X. apply H1, in_or_app. auto.
Qed.

Lemma alls_all : forall q a v, In a (block_alls q) -> In v (snd a) -> In v (all_vars q).
Proof. exact block_alls_sub. Qed.

Lemma once_deep : forall q, NoDup (all_vars q) -> forall a v, In a (block_alls q) -> In v (snd a) -> ~ In v (block_vars q).
Proof.
  induction q as [|b|q IH|q1 IH1 q2 IH2|q1 IH1 q2 IH2|w q IH|c q IH]; intros H a v Ha Hv; cbn [block_alls block_vars all_vars] in *; auto.
  - eapply IH; eauto.
  - apply NoDup_app_inv in H as (H1 & H2 & H3). rewrite in_app_iff in *. intros [X|X]; destruct Ha as [Ha|Ha].
    + eapply IH1; eauto.
    + apply (H3 v); [now apply block_all|eapply alls_all; eauto].
    + apply (H3 v); [eapply alls_all; eauto|now apply block_all].
    + eapply IH2; eauto.
  - apply NoDup_app_inv in H as (H1 & H2 & H3). rewrite in_app_iff in *. intros [X|X]; destruct Ha as [Ha|Ha].
    + eapply IH1; eauto.
    + apply (H3 v); [now apply block_all|eapply alls_all; eauto].
    + apply (H3 v); [eapply alls_all; eauto|now apply block_all].
    + eapply IH2; eauto.
  - inversion H as [|x l N D]; subst. intros [->|X]; [apply N; eapply alls_all; eauto|eapply IH; eauto].
Qed.

Lemma closed_scoped : forall q B G ids, closed G ids q -> NoDup (all_vars q) ->
  (forall a v, In a (block_alls q) -> In v (snd a) -> ~ In v B) -> scoped B G ids q.
Proof.
  induction q as [|b|q IH|q1 IH1 q2 IH2|q1 IH1 q2 IH2|w q IH|c q IH]; intros B G ids C N D; cbn [closed scoped all_vars block_alls] in *; auto.
  - apply NoDup_app_inv in N as (N1 & N2 & _). destruct C. split; [apply IH1|apply IH2]; auto; intros a v Ha Hv; apply (D a v); auto; apply in_or_app; auto.
  - apply NoDup_app_inv in N as (N1 & N2 & _). destruct C. split; [apply IH1|apply IH2]; auto; intros a v Ha Hv; apply (D a v); auto; apply in_or_app; auto.
  - inversion N; subst. auto.
  - destruct C as [C1 C2]. split; auto. split.
    + intros v Hv. apply (D (cID c, all_vars q)); simpl; auto. now apply block_all.
    + apply IH; auto. intros a v Ha Hv X. apply in_app_or in X as [X|X].
      * eapply once_deep; eauto.
      * apply (D (cID c, all_vars q) v); simpl; auto. eapply alls_all; eauto.
Qed.

Lemma once_siblings : forall q, NoDup (all_vars q) -> siblings_apart q.
Proof.
  induction q as [|b|q IH|q1 IH1 q2 IH2|q1 IH1 q2 IH2|w q IH|c q IH]; intros N; cbn [siblings_apart all_vars] in *; auto.
  - apply NoDup_app_inv in N as (N1 & N2 & N3). split; auto. split; auto. intros a b Ha Hb E v X Y. apply (N3 v); eapply alls_all; eauto.
  - apply NoDup_app_inv in N as (N1 & N2 & N3). split; auto. split; auto. intros a b Ha Hb E v X Y. apply (N3 v); eapply alls_all; eauto.
  - inversion N; subst. auto.
Qed.
Lemma plain_negation : forall q, plain_not q -> negation_plain q.
Proof.
  induction q as [|b|q IH|q1 IH1 q2 IH2|q1 IH1 q2 IH2|w q IH|c q IH]; intros N; cbn [plain_not negation_plain] in *; auto.
  - destruct N as [N1 N2]. split; auto. now apply plain_inner.
  - destruct N; auto.
  - destruct N; auto.
Qed.

Lemma fo_wf : forall m t q, fo_query m t q -> wf_query m t q.
Proof.
  intros m t q [F1 F2 F3 F4 F5]. constructor; auto.
  - apply closed_scoped; auto. now apply once_deep.
  - now apply once_siblings.
  - now apply plain_negation.
Qed.

(* ---- both readings agree ---- *)

Section Fo.
Variables (d : nat) (t : tree).

Lemma matrix_free : forall q G ids K E E', closed G ids q -> valid_env d E -> valid_env d E' ->
  (forall v, In v G \/ In v (block_vars q) -> E v = E' v) -> matrix d t E K q -> matrix d t E' K q.
Proof.
  assert (X : forall q G ids K E E', closed G ids q -> valid_env d E -> valid_env d E' ->
     (forall v, In v G \/ In v (block_vars q) -> E v = E' v) -> (matrix d t E K q <-> matrix d t E' K q)).
  { induction q as [|b|q IH|q1 IH1 q2 IH2|q1 IH1 q2 IH2|w q IH|c q IH]; intros G ids K E E' C V V' H; cbn [matrix closed block_vars] in *.
    - tauto.
    - apply holds_ext. intros v Hv. rewrite vars_bind in Hv. auto.
    - rewrite (IH G ids K E E'); tauto.
    - destruct C. rewrite (IH1 G ids K E E'), (IH2 G ids K E E'); try tauto; intros v Hv; apply H; rewrite in_app_iff; tauto.
    - destruct C. rewrite (IH1 G ids K E E'), (IH2 G ids K E E'); try tauto; intros v Hv; apply H; rewrite in_app_iff; tauto.
    - apply (IH (w :: G) ids); auto. intros v Hv. apply H. simpl in *. tauto.
    - destruct C as [C1 C2].
      assert (Y : forall E E', valid_env d E -> valid_env d E' -> (forall v, In v G \/ In v [] -> E v = E' v) -> 
         (forall e, is_node d t e -> exists E1, valid_env d E1 /\ (forall v, ~ In v (block_vars q) -> E1 v = E v) /\ matrix d t E1 ((cID c, e) :: K) q) ->
         (forall e, is_node d t e -> exists E1, valid_env d E1 /\ (forall v, ~ In v (block_vars q) -> E1 v = E' v) /\ matrix d t E1 ((cID c, e) :: K) q)).
      { clear E E' V V' H. intros E E' V V' H M e He. destruct (M e He) as (E1 & V1 & A1 & M1).
        set (E2 := fun v => if inb_str v (block_vars q) then E1 v else E' v).
        assert (V2 : valid_env d E2) by (intros v; unfold E2; destruct (inb_str v (block_vars q)); auto).
        exists E2. split; [exact V2|]. split.
        - intros v Hv. unfold E2. destruct (inb_str v (block_vars q)) eqn:EI; auto. apply inb_str_spec in EI. contradiction.
        - apply (IH G (cID c :: ids) _ E1 E2); auto. intros v Hv. unfold E2. destruct (inb_str v (block_vars q)) eqn:EI; auto.
          assert (~ In v (block_vars q)) as Z by (intros Z; apply inb_str_spec in Z; congruence).
          destruct Hv as [Hv|Hv]; [|contradiction]. rewrite A1 by auto. apply H. auto. }
      split; apply Y; auto. intros v Hv. symmetry. auto. }
  intros q G ids K E E' C V V' H. exact (proj1 (X q G ids K E E' C V V' H)).
Qed.

Lemma no_vars_same : forall q G ids K E, closed G ids q -> valid_env d E -> all_vars q = [] -> (trueFO d t E K q <-> matrix d t E K q).
Proof.
  induction q as [|b|q IH|q1 IH1 q2 IH2|q1 IH1 q2 IH2|w q IH|c q IH]; intros G ids K E C V H; cbn [trueFO matrix closed all_vars] in *.
  - tauto.
  - tauto.
  - rewrite (IH G ids); auto; tauto.
  - apply app_eq_nil in H as []. destruct C. rewrite (IH1 G ids), (IH2 G ids); auto; tauto.
  - apply app_eq_nil in H as []. destruct C. rewrite (IH1 G ids), (IH2 G ids); auto; tauto.
  - discriminate.
  - destruct C as [C1 C2]. destruct (plain_inner q H) as [HB _]. split.
    + intros X e He. exists E. split; auto. split; auto. apply (IH G (cID c :: ids)); auto.
    + intros X e He. destruct (X e He) as (E' & V' & A & M). apply (IH G (cID c :: ids)); auto.
      apply (matrix_free q G (cID c :: ids) _ E' E); auto. intros v _. apply A. rewrite HB. auto.
Qed.

Lemma fo_matrix : forall q G ids K E, closed G ids q -> NoDup (all_vars q) -> (forall v, In v (all_vars q) -> ~ In v G) -> plain_not q -> valid_env d E ->
  (trueFO d t E K q <-> exists E', valid_env d E' /\ (forall v, ~ In v (block_vars q) -> E' v = E v) /\ matrix d t E' K q).
Proof.
  induction q as [|b|q IH|q1 IH1 q2 IH2|q1 IH1 q2 IH2|w q IH|c q IH]; intros G ids K E C N D P V; cbn [all_vars plain_not] in *.
  - destruct C.
  - cbn [trueFO matrix block_vars closed] in *. split.
    + intros H. exists E. auto.
    + intros (E' & V' & A & H). apply (holds_ext d t (bind_atom K b) E' E); auto.
  - destruct P as [P1 P2]. destruct (plain_inner q P1) as [HB _]. cbn [closed] in C. split.
    + intros H. exists E. split; auto. split; auto. cbn [trueFO matrix] in *. rewrite <- (no_vars_same q G ids); auto.
    + intros (E' & V' & A & H). cbn [trueFO matrix block_vars] in *. rewrite (no_vars_same q G ids) by auto.
      intros X. apply H. apply (matrix_free q G ids K E E'); auto. intros v _. symmetry. apply A. rewrite HB. auto.
  - cbn [closed] in C. destruct C as [C1 C2], P as [P1 P2]. apply NoDup_app_inv in N as (N1 & N2 & N3).
    cbn [trueFO block_vars]. rewrite (IH1 G ids), (IH2 G ids); auto; try (intros v Hv; apply D, in_or_app; auto). split.
    + intros [(E1 & V1 & A1 & M1) (E2 & V2 & A2 & M2)].
      set (E' := fun v => if inb_str v (block_vars q1) then E1 v else E2 v).
      assert (V' : valid_env d E') by (intros v; unfold E'; destruct (inb_str v (block_vars q1)); auto).
      exists E'. split; auto. split.
      * intros v Hv. rewrite in_app_iff in Hv. unfold E'. destruct (inb_str v (block_vars q1)) eqn:EI; [apply inb_str_spec in EI; tauto|]. apply A2. tauto.
      * cbn [matrix]. split.
        -- apply (matrix_free q1 G ids K E1 E'); auto. intros v Hv. unfold E'. destruct (inb_str v (block_vars q1)) eqn:EI; auto.
           assert (Z : ~ In v (block_vars q1)) by (intros Z; apply inb_str_spec in Z; congruence). rewrite A1 by auto. symmetry. apply A2.
           intros Y. destruct Hv as [Hv|Hv]; [|contradiction]. apply (D v); auto. apply in_or_app. right. now apply block_all.
        -- apply (matrix_free q2 G ids K E2 E'); auto. intros v Hv. unfold E'. destruct (inb_str v (block_vars q1)) eqn:EI; auto.
           apply inb_str_spec in EI. exfalso. destruct Hv as [Hv|Hv].
           ++ apply (D v); auto. apply in_or_app. left. now apply block_all.
           ++ apply (N3 v); now apply block_all.
    + intros (E' & V' & A & M). cbn [matrix] in M. destruct M as [M1 M2]. split.
      * set (E1 := fun v => if inb_str v (block_vars q1) then E' v else E v).
        assert (V1 : valid_env d E1) by (intros v; unfold E1; destruct (inb_str v (block_vars q1)); auto).
        exists E1. split; auto. split.
        -- intros v Hv. unfold E1. destruct (inb_str v (block_vars q1)) eqn:EI; auto. apply inb_str_spec in EI. contradiction.
        -- apply (matrix_free q1 G ids K E' E1); auto. intros v Hv. unfold E1. destruct (inb_str v (block_vars q1)) eqn:EI; auto.
           apply A. rewrite in_app_iff. intros [Y|Y].
           ++ apply inb_str_spec in Y. congruence.
           ++ destruct Hv as [Hv|Hv].
              ** apply (D v); auto. apply in_or_app. right. now apply block_all.
              ** apply inb_str_spec in Hv. congruence.
      * set (E1 := fun v => if inb_str v (block_vars q2) then E' v else E v).
        assert (V1 : valid_env d E1) by (intros v; unfold E1; destruct (inb_str v (block_vars q2)); auto).
        exists E1. split; auto. split.
        -- intros v Hv. unfold E1. destruct (inb_str v (block_vars q2)) eqn:EI; auto. apply inb_str_spec in EI. contradiction.
        -- apply (matrix_free q2 G ids K E' E1); auto. intros v Hv. unfold E1. destruct (inb_str v (block_vars q2)) eqn:EI; auto.
           apply A. rewrite in_app_iff. intros [Y|Y].
           ++ destruct Hv as [Hv|Hv].
              ** apply (D v); auto. apply in_or_app. left. now apply block_all.
              ** apply inb_str_spec in Hv. congruence.
           ++ apply inb_str_spec in Y. congruence.
  - cbn [closed] in C. destruct C as [C1 C2], P as [P1 P2]. apply NoDup_app_inv in N as (N1 & N2 & N3).
    cbn [trueFO block_vars]. rewrite (IH1 G ids), (IH2 G ids); auto; try (intros v Hv; apply D, in_or_app; auto). split.
    + intros [(E1 & V1 & A1 & M1)|(E2 & V2 & A2 & M2)].
      * exists E1. split; auto. split; [|cbn [matrix]; auto]. intros v Hv. apply A1. intros X. apply Hv, in_or_app. auto.
      * exists E2. split; auto. split; [|cbn [matrix]; auto]. intros v Hv. apply A2. intros X. apply Hv, in_or_app. auto.
    + intros (E' & V' & A & M). cbn [matrix] in M.
      assert (Y : forall q, closed G ids q -> (forall v, In v G -> ~ In v (block_vars q1 ++ block_vars q2)) -> matrix d t E' K q ->
         exists E1, valid_env d E1 /\ (forall v, ~ In v (block_vars q) -> E1 v = E v) /\ matrix d t E1 K q).
      { intros q C HG Mq. set (E1 := fun v => if inb_str v (block_vars q) then E' v else E v).
        assert (V1 : valid_env d E1) by (intros v; unfold E1; destruct (inb_str v (block_vars q)); auto).
        exists E1. split; auto. split.
        - intros v Hv. unfold E1. destruct (inb_str v (block_vars q)) eqn:EI; auto. apply inb_str_spec in EI. contradiction.
        - apply (matrix_free q G ids K E' E1); auto. intros v Hv. unfold E1. destruct (inb_str v (block_vars q)) eqn:EI; auto.
          destruct Hv as [Hv|Hv]; [apply A; auto|]. apply inb_str_spec in Hv. congruence. }
      assert (HG : forall v, In v G -> ~ In v (block_vars q1 ++ block_vars q2)).
      { intros v Hv X. apply (D v); auto. apply in_or_app. apply in_app_or in X as [X|X]; [left|right]; now apply block_all. }
      destruct M as [M|M]; [left|right]; apply Y; auto.
  - cbn [closed block_vars trueFO] in *. inversion N as [|x l N1 N2]; subst. split.
    + intros (e & He & H).
      assert (Ve : valid_env d (env_set E w e)) by (intros v; unfold env_set; destruct (String.eqb v w); auto).
      apply (IH (w :: G) ids) in H as (E' & V' & A & M); auto.
      * exists E'. split; auto. split; auto. intros v Hv. rewrite A by (intros X; apply Hv; simpl; auto). unfold env_set.
        destruct (String.eqb_spec v w) as [->|]; auto. exfalso. apply Hv. simpl; auto.
      * intros v Hv [<-|X]; [contradiction|]. apply (D v); simpl; auto.
    + intros (E' & V' & A & M). exists (E' w). split; auto.
      assert (Ve : valid_env d (env_set E w (E' w))) by (intros v; unfold env_set; destruct (String.eqb v w); auto).
      apply (IH (w :: G) ids); auto.
      * intros v Hv [<-|X]; [contradiction|]. apply (D v); simpl; auto.
      * exists E'. split; auto. split; auto. intros v Hv. unfold env_set. destruct (String.eqb_spec v w) as [->|]; auto.
        apply A. intros [->|X]; auto.
  - cbn [closed block_vars trueFO matrix] in *. destruct C as [C1 C2]. split.
    + intros H. exists E. split; auto. split; auto. intros e He. apply (IH G (cID c :: ids)); auto.
    + intros (E' & V' & A & M) e He. apply (IH G (cID c :: ids)); auto. destruct (M e He) as (E1 & V1 & A1 & M1).
      exists E1. split; auto. split; auto. intros v Hv. rewrite A1 by auto. apply A. auto.
Qed.

Theorem fo_true : forall q, closed [] [] q -> NoDup (all_vars q) -> plain_not q ->
  forall E, valid_env d E -> (trueFO d t E [] q <-> true_query d t q).
Proof.
  intros q C N P E V. rewrite (fo_matrix q [] [] [] E); auto. split.
  - intros (E' & V' & _ & M). exists E'. auto.
  - intros (E' & V' & M). set (E1 := fun v => if inb_str v (block_vars q) then E' v else E v).
    assert (V1 : valid_env d E1) by (intros v; unfold E1; destruct (inb_str v (block_vars q)); auto).
    exists E1. split; auto. split.
    + intros v Hv. unfold E1. destruct (inb_str v (block_vars q)) eqn:EI; auto. apply inb_str_spec in EI. contradiction.
    + apply (matrix_free q [] [] [] E' E1); auto. intros v Hv. unfold E1. destruct (inb_str v (block_vars q)) eqn:EI; auto.
      destruct Hv as [[]|Hv]. apply inb_str_spec in Hv. congruence.
Qed.
End Fo.
