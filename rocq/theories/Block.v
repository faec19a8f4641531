(* Queries and their written out formulas: an assignment of instances to the
   scoped names makes the formula true iff the query is true. *)
From Verif Require Import GoBase GoLemmas Cnf Query Walk Atoms Logop Spec Meaning Truth CnfSem QueryLemmas Sym AtomBase WalkLemmas AtomMain Form Master.
Local Open Scope Z_scope.
Local Open Scope list_scope.

Definition path := list (string * Z).

Definition path_eq_dec (a b : path) : {a = b} + {a <> b}.
Proof. repeat decide equality. Defined.

(* ---- the meaning of a query for an assignment to pairs (variable, path) ---- *)

Definition inb_str (v : string) (l : list string) : bool := existsb (String.eqb v) l.
Lemma inb_str_spec : forall v l, inb_str v l = true <-> In v l.
Proof.
  intros v l. unfold inb_str. rewrite existsb_exists. split.
  - intros (x & H & E). apply String.eqb_eq in E. now subst.
  - intros H. exists v. split; auto. apply String.eqb_refl.
Qed.

(* names of a block are put at its path *)
Definition place (nm : string -> path) (l : list string) (p : path) : string -> path :=
  fun v => if inb_str v l then p else nm v.

Fixpoint evalN (d : nat) (t : tree) (F : string -> path -> inst) (p : path) (nm : string -> path) (K : bindings) (q : query) : Prop :=
  match q with
  | QNil => True
  | QAtom a => holds d t (fun v => F v (nm v)) (bind_atom K a)
  | QNot q => ~ evalN d t F p nm K q
  | QAnd q1 q2 => evalN d t F p nm K q1 /\ evalN d t F p nm K q2
  | QOr q1 q2 => evalN d t F p nm K q1 \/ evalN d t F p nm K q2
  | QWith _ q => evalN d t F p nm K q
  | QAll c q =>
      forall i e, nth_error (node_instances d t) i = Some e ->
        let p' := p ++ [(cID c, Z.of_nat i)] in
        evalN d t F p' (place nm (block_vars q) p') ((cID c, e) :: K) q
  end.

(* pairs placed inside the ForAllGuarded's of a query *)
Fixpoint owned (p : path) (q : query) (v : string) (p' : path) : Prop :=
  match q with
  | QNil | QAtom _ => False
  | QNot q | QWith _ q => owned p q v p'
  | QAnd q1 q2 | QOr q1 q2 => owned p q1 v p' \/ owned p q2 v p'
  | QAll c q => exists i : nat, let p1 := p ++ [(cID c, Z.of_nat i)] in
                  (In v (block_vars q) /\ p' = p1) \/ owned p1 q v p'
  end.

Lemma holds_ext : forall d t a E E', (forall v, In v (vars_of a) -> E v = E' v) -> (holds d t E a <-> holds d t E' a).
Proof.
  intros d t a E E' H. destruct a; cbn [holds vars_of] in *; rewrite ?H by (simpl; auto); tauto.
Qed.
Lemma vars_bind : forall K a, vars_of (bind_atom K a) = vars_of a.
Proof. intros K a. destruct a; reflexivity. Qed.

Lemma matrix_ext : forall d t q K E E', (forall v, E v = E' v) -> (matrix d t E K q <-> matrix d t E' K q).
Proof.
  intros d t q. induction q as [|a|q IH|q1 IH1 q2 IH2|q1 IH1 q2 IH2|v q IH|c q IH]; intros K E E' H; cbn [matrix].
  - tauto.
  - apply holds_ext. auto.
  - rewrite (IH K E E'); tauto.
  - rewrite (IH1 K E E'), (IH2 K E E'); tauto.
  - rewrite (IH1 K E E'), (IH2 K E E'); tauto.
  - rewrite (IH K E E'); tauto.
  - split; intros G e He; destruct (G e He) as (E1 & V & A & B); exists E1; (split; [exact V|]); (split; [|exact B]); intros v Hv; rewrite A by auto; auto.
Qed.

Lemma evalN_ext : forall d t q F F' p nm nm' K,
  (forall v, nm v = nm' v) ->
  (forall v, F v (nm v) = F' v (nm v)) ->
  (forall v p', owned p q v p' -> F v p' = F' v p') ->
  (evalN d t F p nm K q <-> evalN d t F' p nm' K q).
Proof.
  intros d t q. induction q as [|a|q IH|q1 IH1 q2 IH2|q1 IH1 q2 IH2|v q IH|c q IH]; intros F F' p nm nm' K Hn H1 H2; cbn [evalN owned] in *.
  - tauto.
  - apply holds_ext. intros v _. rewrite <- Hn. auto.
  - rewrite (IH F F' p nm nm' K); auto; tauto.
  - rewrite (IH1 F F' p nm nm' K), (IH2 F F' p nm nm' K); auto; tauto.
  - rewrite (IH1 F F' p nm nm' K), (IH2 F F' p nm nm' K); auto; tauto.
  - rewrite (IH F F' p nm nm' K); auto; tauto.
  - assert (G : forall i e, evalN d t F (p ++ [(cID c, Z.of_nat i)]) (place nm (block_vars q) (p ++ [(cID c, Z.of_nat i)])) ((cID c, e) :: K) q <->
                            evalN d t F' (p ++ [(cID c, Z.of_nat i)]) (place nm' (block_vars q) (p ++ [(cID c, Z.of_nat i)])) ((cID c, e) :: K) q).
    { intros i e. apply IH.
      - intros v. unfold place. now rewrite Hn.
      - intros v. unfold place. destruct (inb_str v (block_vars q)) eqn:E; auto. apply H2. exists i. left. split; auto. now apply inb_str_spec.
      - intros v p' Ho. apply H2. exists i. now right. }
    split; intros X i e He; apply G; auto.
Qed.

(* ---- from the assignment to the query ---- *)

Lemma insts_In : forall d t e, is_node d t e <-> exists i, nth_error (node_instances d t) i = Some e.
Proof. intros. unfold is_node. split; [apply In_nth_error|]. intros (i & H). eapply nth_error_In; eauto. Qed.

Lemma plain_vars : forall q, (forall a, In a (block_alls q) -> snd a = []) -> all_vars q = block_vars q.
Proof.
  induction q as [|a|q IH|q1 IH1 q2 IH2|q1 IH1 q2 IH2|v q IH|c q IH]; intros H; simpl in *; auto.
  - rewrite IH1, IH2; auto; intros a Ha; apply H, in_or_app; auto.
  - rewrite IH1, IH2; auto; intros a Ha; apply H, in_or_app; auto.
  - f_equal. auto.
  - apply (H _ (or_introl eq_refl)).
Qed.
Lemma block_alls_sub : forall q a v, In a (block_alls q) -> In v (snd a) -> In v (all_vars q).
Proof.
  induction q as [|x|q IH|q1 IH1 q2 IH2|q1 IH1 q2 IH2|w q IH|c q IH]; intros a v H Hv; simpl in *; try contradiction; eauto.
  - apply in_app_or in H as [H|H]; apply in_or_app; eauto.
  - apply in_app_or in H as [H|H]; apply in_or_app; eauto.
  - destruct H as [<-|[]]. exact Hv.
Qed.
Lemma block_vars_sub : forall q v, In v (block_vars q) -> In v (all_vars q).
Proof.
  induction q as [|x|q IH|q1 IH1 q2 IH2|q1 IH1 q2 IH2|w q IH|c q IH]; intros v H; simpl in *; try contradiction; auto.
  - apply in_app_or in H as [H|H]; apply in_or_app; eauto.
  - apply in_app_or in H as [H|H]; apply in_or_app; eauto.
  - destruct H; auto.
Qed.
Lemma nil_of : forall (A : Type) (l : list A), (forall x, ~ In x l) -> l = [].
Proof. intros A [|x l] H; auto. exfalso. apply (H x). simpl; auto. Qed.
Lemma plain_inner : forall q, all_vars q = [] -> block_vars q = [] /\ forall a, In a (block_alls q) -> snd a = [].
Proof.
  intros q H. split.
  - apply nil_of. intros v Hv. apply block_vars_sub in Hv. rewrite H in Hv. contradiction.
  - intros a Ha. apply nil_of. intros v Hv. pose proof (block_alls_sub q a v Ha Hv) as X. rewrite H in X. contradiction.
Qed.

Section B2.
Variable d : nat.
Variable t : tree.

Lemma plain_iff : forall q F p nm K, (forall v p, valid_inst d (F v p)) -> (forall a, In a (block_alls q) -> snd a = []) ->
  (evalN d t F p nm K q <-> matrix d t (fun v => F v (nm v)) K q).
Proof.
  induction q as [|a|q IH|q1 IH1 q2 IH2|q1 IH1 q2 IH2|v q IH|c q IH]; intros F p nm K V H; cbn [evalN matrix block_alls] in *.
  - tauto.
  - tauto.
  - rewrite (IH F p nm K); auto. tauto.
  - rewrite (IH1 F p nm K), (IH2 F p nm K); auto; try tauto; intros a Ha; apply H, in_or_app; auto.
  - rewrite (IH1 F p nm K), (IH2 F p nm K); auto; try tauto; intros a Ha; apply H, in_or_app; auto.
  - rewrite (IH F p nm K); auto. tauto.
  - assert (Hq : all_vars q = []) by (apply (H _ (or_introl eq_refl))). destruct (plain_inner q Hq) as [B A].
    split.
    + intros G e He. apply insts_In in He as (i & Hi). specialize (G i e Hi). cbv zeta in G. apply IH in G; auto.
      exists (fun v => F v (nm v)). split; [intros v; apply V|]. split; auto.
      eapply matrix_ext; [|exact G]. intros v. unfold place. rewrite B. reflexivity.
    + intros G i e Hi. cbv zeta. apply IH; auto. destruct (G e) as (E' & V' & A' & M'); [apply insts_In; eauto|].
      eapply matrix_ext; [|exact M']. intros v. unfold place. rewrite B. simpl. rewrite A'; auto. rewrite B. auto.
Qed.

Lemma evalN_matrix : forall q F p nm K, (forall v p, valid_inst d (F v p)) -> negation_plain q ->
  evalN d t F p nm K q -> matrix d t (fun v => F v (nm v)) K q.
Proof.
  induction q as [|a|q IH|q1 IH1 q2 IH2|q1 IH1 q2 IH2|v q IH|c q IH]; intros F p nm K V NP H; cbn [evalN matrix negation_plain] in *; auto.
  - destruct NP as [P _]. intros C. apply H. now apply plain_iff.
  - destruct NP, H; split; eauto.
  - destruct NP, H; eauto.
  - eauto.
  - intros e He. apply insts_In in He as (i & Hi). specialize (H i e Hi). cbv zeta in H. apply IH in H; auto.
    eexists. split; [|split; [|exact H]]; cbv beta.
    + intros v. apply V.
    + intros v Hv. unfold place. destruct (inb_str v (block_vars q)) eqn:E; auto. apply inb_str_spec in E. contradiction.
Qed.

(* ---- from the query to an assignment ---- *)

Lemma owned_alls : forall q p v p', owned p q v p' -> exists a (i : Z) rest,
  In a (block_alls q) /\ In v (snd a) /\ p' = p ++ (fst a, i) :: rest.
Proof.
  induction q as [|a|q IH|q1 IH1 q2 IH2|q1 IH1 q2 IH2|w q IH|c q IH]; intros p v p' H; cbn [owned block_alls] in *; try contradiction; eauto.
  - destruct H as [H|H]; [apply IH1 in H|apply IH2 in H]; destruct H as (a & i & rest & H1 & H2 & H3); exists a, i, rest; repeat split; auto; apply in_or_app; auto.
  - destruct H as [H|H]; [apply IH1 in H|apply IH2 in H]; destruct H as (a & i & rest & H1 & H2 & H3); exists a, i, rest; repeat split; auto; apply in_or_app; auto.
  - destruct H as (i & [[H ->]|H]).
    + exists (cID c, all_vars q), (Z.of_nat i), []. split; [simpl; auto|]. split; auto. now apply block_vars_sub.
    + apply IH in H as (a & j & rest & H1 & H2 & ->). exists (cID c, all_vars q), (Z.of_nat i), ((fst a, j) :: rest).
      split; [simpl; auto|]. split; [eapply block_alls_sub; eauto|]. simpl. now rewrite <- app_assoc.
Qed.
Lemma owned_longer : forall q p v p', owned p q v p' -> (length p < length p')%nat.
Proof. intros q p v p' H. apply owned_alls in H as (a & i & rest & _ & _ & ->). rewrite app_length. simpl. lia. Qed.

Lemma matrix_evalN : forall q F p nm K, (forall v p, valid_inst d (F v p)) -> (forall v, (length (nm v) <= length p)%nat) ->
  siblings_apart q -> negation_plain q -> matrix d t (fun v => F v (nm v)) K q ->
  exists F', (forall v p, valid_inst d (F' v p)) /\ (forall v p', ~ owned p q v p' -> F' v p' = F v p') /\ evalN d t F' p nm K q.
Proof.
  induction q as [|a|q IH|q1 IH1 q2 IH2|q1 IH1 q2 IH2|v q IH|c q IH]; intros F p nm K V L SA NP H; cbn [evalN matrix negation_plain siblings_apart owned] in *.
  - exists F. split; [exact V|]. split; auto.
  - exists F. split; [exact V|]. split; auto.
  - exists F. split; [exact V|]. split; auto. destruct NP as [P _]. intros C. apply H. eapply plain_iff; eauto.
  - destruct NP as [NP1 NP2], SA as (SA1 & SA2 & SA3), H as [H1 H2].
    destruct (IH1 F p nm K V L SA1 NP1 H1) as (F1 & V1 & A1 & E1).
    assert (N1 : forall v, F1 v (nm v) = F v (nm v)).
    { intros v. apply A1. intros C. apply owned_longer in C. specialize (L v). lia. }
    destruct (IH2 F1 p nm K V1 L SA2 NP2) as (F2 & V2 & A2 & E2).
    { eapply matrix_ext; [|exact H2]. intros v. symmetry. auto. }
    exists F2. split; [exact V2|]. split; [|split; [|exact E2]].
    + intros v p' Hn. rewrite A2, A1; tauto.
    + eapply evalN_ext; [reflexivity| | |exact E1].
      * intros v. rewrite A2; auto. intros C. apply owned_longer in C. specialize (L v). lia.
      * intros v p' Ho. apply A2. intros C. apply owned_alls in Ho as (a & i & r1 & Ha1 & Ha2 & Ha3).
        apply owned_alls in C as (b & j & r2 & Hb1 & Hb2 & Hb3). rewrite Ha3 in Hb3. apply app_inv_head in Hb3.
        injection Hb3 as X _ _. apply (SA3 a b Ha1 Hb1 X v); auto.
  - destruct NP as [NP1 NP2], SA as (SA1 & SA2 & SA3), H as [H|H].
    + destruct (IH1 F p nm K V L SA1 NP1 H) as (F1 & V1 & A1 & E1). exists F1. split; [exact V1|]. split; auto; intros; apply A1; tauto.
    + destruct (IH2 F p nm K V L SA2 NP2 H) as (F1 & V1 & A1 & E1). exists F1. split; [exact V1|]. split; auto; intros; apply A1; tauto.
  - eauto.
  - (* one instance after the other *)
    assert (G : forall n, exists F', (forall v p, valid_inst d (F' v p)) /\
       (forall v p', (forall i, (i < n)%nat -> let p1 := p ++ [(cID c, Z.of_nat i)] in ~ ((In v (block_vars q) /\ p' = p1) \/ owned p1 q v p')) -> F' v p' = F v p') /\
       forall i e, (i < n)%nat -> nth_error (node_instances d t) i = Some e ->
        let p' := p ++ [(cID c, Z.of_nat i)] in
        evalN d t F' p' (place nm (block_vars q) p') ((cID c, e) :: K) q).
    { induction n as [|n (F0 & V0 & A0 & E0)].
      - exists F. split; [exact V|]. split; auto. intros; lia.
      - destruct (nth_error (node_instances d t) n) as [e|] eqn:En.
        2:{ exists F0. split; [exact V0|]. split.
            - intros v p' Hn. apply A0. intros i Hi. apply Hn. lia.
            - intros i e Hi He. destruct (Nat.eq_dec i n) as [->|]; [congruence|]. apply E0; auto. lia. }
        destruct (H e) as (E' & VE & AE & ME); [apply insts_In; eauto|].
        set (p1 := p ++ [(cID c, Z.of_nat n)]) in *.
        assert (Lp1 : length p1 = S (length p)) by (unfold p1; rewrite app_length; simpl; lia).
        (* the instances of this turn *)
        set (F1 := fun v p' => if inb_str v (block_vars q) && (if path_eq_dec p' p1 then true else false)
                               then E' v else F0 v p').
        assert (F1a : forall v, In v (block_vars q) -> F1 v p1 = E' v).
        { intros v Hv. unfold F1. apply inb_str_spec in Hv. rewrite Hv. destruct (path_eq_dec p1 p1); [reflexivity|congruence]. }
        assert (F1b : forall v p', ~ (In v (block_vars q) /\ p' = p1) -> F1 v p' = F0 v p').
        { intros v p' Hn. unfold F1. destruct (inb_str v (block_vars q)) eqn:Ei; auto.
          destruct (path_eq_dec p' p1) as [->|]; auto. exfalso. apply Hn. split; auto. now apply inb_str_spec. }
        assert (V1 : forall v p', valid_inst d (F1 v p')).
        { intros v p'. unfold F1. destruct (_ && _); [apply VE|apply V0]. }
        assert (N0 : forall v, F0 v (nm v) = F v (nm v)).
        { intros v. apply A0. intros i Hi. cbv zeta. intros [[_ C]|C].
          - apply (f_equal (@length _)) in C. rewrite app_length in C. simpl in C. specialize (L v). lia.
          - apply owned_longer in C. rewrite app_length in C. simpl in C. specialize (L v). lia. }
        destruct (IH F1 p1 (place nm (block_vars q) p1) ((cID c, e) :: K) V1) as (F2 & V2 & A2 & E2); auto.
        { intros v. unfold place. destruct (inb_str v (block_vars q)); auto. specialize (L v). lia. }
        { eapply matrix_ext; [|exact ME]. intros v. unfold place. destruct (inb_str v (block_vars q)) eqn:Ei.
          - apply F1a. now apply inb_str_spec.
          - assert (Hni : ~ In v (block_vars q)) by (intros C; apply inb_str_spec in C; congruence).
            rewrite F1b, N0 by tauto. symmetry. now apply AE. }
        exists F2. split; [exact V2|]. split.
        + intros v p' Hn. rewrite A2, F1b.
          * apply A0. intros i Hi. apply Hn. lia.
          * intros C. apply (Hn n ltac:(lia)). left. exact C.
          * intros C. apply (Hn n ltac:(lia)). right. exact C.
        + intros i e' Hi He'. cbv zeta. destruct (Nat.eq_dec i n) as [->|Hne].
          * assert (e' = e) as -> by congruence. exact E2.
          * eapply evalN_ext; [reflexivity| | |apply (E0 i e'); [lia|exact He']].
            -- intros v. symmetry. unfold place. destruct (inb_str v (block_vars q)) eqn:Ei.
               ++ rewrite A2, F1b; auto.
                  ** intros [_ C]. unfold p1 in C. apply app_inv_head in C. injection C as C. lia.
                  ** intros C. apply owned_longer in C. rewrite app_length in C. rewrite Lp1 in C. simpl in C. lia.
               ++ rewrite A2, F1b; auto.
                  ** intros [_ C]. specialize (L v). rewrite C, Lp1 in L. lia.
                  ** intros C. apply owned_longer in C. specialize (L v). rewrite Lp1 in C. lia.
            -- intros v p' Ho. symmetry. apply owned_alls in Ho as (a & j & rest & _ & _ & ->).
               rewrite A2, F1b; auto.
               ++ intros [_ C]. unfold p1 in C. rewrite <- app_assoc in C. apply app_inv_head in C. discriminate.
               ++ intros C. apply owned_alls in C as (b & j' & rest' & _ & _ & C). unfold p1 in C. rewrite <- !app_assoc in C.
                  apply app_inv_head in C. injection C as C _. lia. }
    destruct (G (length (node_instances d t))) as (F' & V' & A' & E'). exists F'. split; [exact V'|]. split.
    + intros v p' Hn. apply A'. intros i Hi p1 C. apply Hn. exists i. exact C.
    + intros i e He. apply E'; auto. apply nth_error_Some. congruence.
Qed.

Theorem evalN_true : forall q, siblings_apart q -> negation_plain q ->
  ((exists F, (forall v p, valid_inst d (F v p)) /\ evalN d t F [] (fun _ => []) [] q) <-> true_query d t q).
Proof.
  intros q SA NP. split.
  - intros (F & V & H). exists (fun v => F v []). split; [intros v; apply V|]. now apply (evalN_matrix q F [] (fun _ => []) []).
  - intros (E & V & H). destruct (matrix_evalN q (fun v _ => E v) [] (fun _ => []) []) as (F & VF & _ & HF); auto.
    exists F. auto.
Qed.
End B2.
