(* ComputeOptim: what one turn of the loop does, and how many turns there are. *)
From Verif Require Import GoBase GoLemmas Cnf Query Walk Atoms Logop Spec Meaning Truth CnfSem QueryLemmas Sym AtomBase TreeLemmas WalkLemmas AtomMain Form Master Block Ground Sat AtomCnf Evolve Names FirstOrder Answer Solver Dimacs Compute Run PropContext PropTruth PropCompute.
Local Open Scope string_scope.
Local Open Scope Z_scope.
Local Open Scope list_scope.

(* ---- specification ---- *)

(* The instance e, as the value of v, satisfies the query. *)
Definition satisfies (d : nat) (t : tree) (v : string) (q : query) (e : inst) : Prop :=
  exists E, valid_env d E /\ E v = e /\ matrix d t E [] q.

(* The queries that are encoded are well-formed, and the formula and the order
   declare different variables (but for v). *)
Record problem (m : model) (t : tree) (N : naming) (fg : QVar -> query) (og : QVar -> QConst -> query) (v : string) : Prop := {
  pb_dim : (0 < Dim m)%nat;
  pb_tree : is_dtree m t;
  pb_formula : wf_query m t (QWith v (fg v)) /\ tidy N (Dim m) (QWith v (fg v)) /\ fits m (QWith v (fg v));
  pb_order : forall e, valid_inst (Dim m) e -> let q := QWith v (QAnd (fg v) (og v (mkQConst "" e))) in wf_query m t q /\ tidy N (Dim m) q /\ fits m q;
  pb_apart : forall e w, valid_inst (Dim m) e -> In w (block_vars (fg v)) -> In w (block_vars (og v (mkQConst "" e))) -> w = v
}.

Lemma scoped_closed : forall q B G ids, scoped B G ids q -> closed G ids q.
Proof.
  induction q as [|b|q IH|q1 IH1 q2 IH2|q1 IH1 q2 IH2|w q IH|c q IH]; intros B G ids H; cbn [scoped closed] in *; eauto.
  - destruct H; split; eauto.
  - destruct H; split; eauto.
  - destruct H as (H1 & _ & H2). split; eauto.
Qed.

Lemma satisfies_valid : forall d t v q e, satisfies d t v q e -> valid_inst d e.
Proof. intros d t v q e (E & V & <- & _). apply V. Qed.

(* Formula and order can be satisfied separately. *)
Lemma satisfies_and : forall d t v q1 q2 e, closed [v] [] q1 -> closed [v] [] q2 ->
  (forall w, In w (block_vars q1) -> In w (block_vars q2) -> w = v) ->
  (satisfies d t v (QAnd q1 q2) e <-> satisfies d t v q1 e /\ satisfies d t v q2 e).
Proof.
  intros d t v q1 q2 e C1 C2 D. split.
  - intros (E & V & Ev & M1 & M2). split; exists E; auto.
  - intros [(E1 & V1 & X1 & M1) (E2 & V2 & X2 & M2)].
    set (E := fun w => if String.eqb w v then e else if inb_str w (block_vars q1) then E1 w else E2 w).
    assert (V : valid_env d E).
    { intros w. unfold E. destruct (String.eqb w v); [rewrite <- X1; apply V1|]. destruct (inb_str w (block_vars q1)); auto. }
    exists E. split; auto. split; [unfold E; now rewrite String.eqb_refl|]. split.
    + apply (matrix_free d t q1 [v] [] [] E1 E C1 V1 V); auto. intros w Hw. unfold E. destruct (String.eqb w v) eqn:Q; [apply String.eqb_eq in Q; subst w; auto|].
      destruct Hw as [[<-|[]]|Hw]; [rewrite String.eqb_refl in Q; discriminate|]. destruct (inb_str w (block_vars q1)) eqn:I; auto.
      apply inb_str_spec in Hw. congruence.
    + apply (matrix_free d t q2 [v] [] [] E2 E C2 V2 V); auto. intros w Hw. unfold E. destruct (String.eqb w v) eqn:Q; [apply String.eqb_eq in Q; subst w; auto|].
      destruct Hw as [[<-|[]]|Hw]; [rewrite String.eqb_refl in Q; discriminate|]. destruct (inb_str w (block_vars q1)) eqn:I; auto.
      apply inb_str_spec in I. rewrite (D w I Hw) in Q. rewrite String.eqb_refl in Q. discriminate.
Qed.

Lemma true_satisfies : forall d t v q, true_query d t (QWith v q) <-> exists e, satisfies d t v q e.
Proof.
  intros d t v q. split.
  - intros (E & V & M). exists (E v), E. auto.
  - intros (e & E & V & _ & M). exists E. auto.
Qed.

Section Loop.
Variables (S : Compute.env) (m : model) (t : tree) (N : naming) (fg : QVar -> query) (og : QVar -> QConst -> query) (v : string).
Hypothesis (P : problem m t N fg og v) (FO : files_ok S) (CS : correct_solver S).

Definition meets (e : inst) : Prop := satisfies (Dim m) t v (fg v) e.
Definition below (e' e : inst) : Prop := satisfies (Dim m) t v (og v (mkQConst "" e)) e'.

(* The context and the solver hold the solution e. *)
Record holding (s : solver) (c : ctx) (e : inst) : Prop := {
  hd_scoper : cScoper c = S0;
  hd_model : cModel c = m;
  hd_value : Values (bs_output s) [v] c = (Ok [mkQConst "" e], c);
  hd_meets : meets e
}.

Lemma reset_fresh : forall s c e, holding s c e -> CtxReset c = BasicQContext m.
Proof. intros s c e [H1 H2 _ _]. unfold CtxReset. rewrite H1, H2. reflexivity. Qed.

Lemma step_fresh : forall q s, wf_query m t q -> tidy N (Dim m) q -> fits m q ->
  (true_query (Dim m) t q /\ exists out c' E, Step S q s (BasicQContext m) = (SSat, mkSolver out (Datatypes.S (bs_calls s)), c') /\ cScoper c' = S0 /\ cModel c' = m /\
     valid_env (Dim m) E /\ matrix (Dim m) t E [] q /\ forall vars, incl vars (block_vars q) -> Values out vars c' = (Ok (map (fun v => mkQConst "" (E v)) vars), c')) \/
  (~ true_query (Dim m) t q /\ exists c', Step S q s (BasicQContext m) = (SUnsat, mkSolver (bs_output s) (Datatypes.S (bs_calls s)), c')).
Proof.
  intros q s W T F. destruct (fresh_answer m t q N (pb_dim _ _ _ _ _ _ P) (fun _ => pb_tree _ _ _ _ _ _ P) W T) as (f & vm' & EN & A).
  destruct (Step_answers S m t q _ f vm' s _ FO CS EN A (F _ _ EN)) as [(H & out & ls & e & ST & FD)|(H & ST)].
  - left. split; auto. exists out, (mkCtx S0 vm' m), e. split; auto. split; auto. split; auto. destruct FD; auto.
  - right. split; eauto.
Qed.

Lemma loop_query : forall e e', valid_inst (Dim m) e -> (satisfies (Dim m) t v (QAnd (fg v) (og v (mkQConst "" e))) e' <-> meets e' /\ below e' e).
Proof.
  intros e e' V. destruct (pb_order _ _ _ _ _ _ P e V) as (W & _). pose proof (wf_scoped _ _ _ W) as SC. cbn [scoped] in SC. destruct SC as [C1 C2].
  apply satisfies_and; eauto using scoped_closed. intros w. apply (pb_apart _ _ _ _ _ _ P e w V).
Qed.

(* The first Step. *)
Lemma first_step : forall s,
  (exists e s' c', Step S (QWith v (fg v)) s (BasicQContext m) = (SSat, s', c') /\ bs_calls s' = Datatypes.S (bs_calls s) /\ holding s' c' e) \/
  ((forall e, ~ meets e) /\ exists s' c', Step S (QWith v (fg v)) s (BasicQContext m) = (SUnsat, s', c') /\ bs_calls s' = Datatypes.S (bs_calls s)).
Proof.
  intros s. destruct (pb_formula _ _ _ _ _ _ P) as (W & T & F). destruct (step_fresh _ s W T F) as [(H & out & c' & E & ST & X1 & X2 & X3 & X4 & X5)|(H & c' & ST)].
  - left. exists (E v). do 2 eexists. split; [exact ST|]. split; auto. constructor; auto.
    + apply (X5 [v]). intros w [<-|[]]. simpl. auto.
    + exists E. auto.
  - right. split; [|do 2 eexists; split; [exact ST|auto]]. intros e He. apply H. apply true_satisfies. eauto.
Qed.

(* One turn: a smaller solution, or the answer. *)
Lemma turn : forall s c e fuel k, holding s c e ->
  (exists e' s' c', opt_loop (Datatypes.S fuel) S fg og v s c k = opt_loop fuel S fg og v s' c' (k + 1) /\
     holding s' c' e' /\ below e' e /\ bs_calls s' = Datatypes.S (bs_calls s)) \/
  ((forall e', meets e' -> ~ below e' e) /\
   exists s' c', opt_loop (Datatypes.S fuel) S fg og v s c k = (Ok (mkOpt true (mkQConst "" e) (k + 1)), s', c') /\ bs_calls s' = Datatypes.S (bs_calls s)).
Proof.
  intros s c e fuel k H. cbn [opt_loop]. rewrite (hd_value _ _ _ H), (reset_fresh _ _ _ H). pose proof (satisfies_valid _ _ _ _ _ (hd_meets _ _ _ H)) as V.
  destruct (pb_order _ _ _ _ _ _ P e V) as (W & T & F). destruct (step_fresh _ s W T F) as [(Q & out & c' & E & ST & X1 & X2 & X3 & X4 & X5)|(Q & c' & ST)].
  - left. assert (L : meets (E v) /\ below (E v) e) by (apply loop_query; auto; exists E; auto). exists (E v). do 2 eexists. split; [rewrite ST; reflexivity|].
    split; [|split; [tauto|auto]]. constructor; auto; [|tauto]. apply (X5 [v]). intros w [<-|[]]. simpl. auto.
  - right. split; [|do 2 eexists; split; [rewrite ST; reflexivity|auto]]. intros e' M B. apply Q. apply true_satisfies. exists e'. now apply loop_query.
Qed.

(* Whatever the order: an answer is a solution with no smaller one, and the
   calls are counted. *)
Lemma loop_ok : forall fuel s c e k out s' c', holding s c e -> opt_loop fuel S fg og v s c k = (Ok out, s', c') ->
  exists e', oFound out = true /\ oValue out = mkQConst "" e' /\ meets e' /\ (forall e'', meets e'' -> ~ below e'' e') /\
    oCalls out = k + Z.of_nat (bs_calls s' - bs_calls s) /\ (bs_calls s < bs_calls s')%nat.
Proof.
  induction fuel as [|fuel IH]; intros s c e k out s' c' H R; [discriminate|].
  destruct (turn s c e fuel k H) as [(e1 & s1 & c1 & X1 & X2 & X3 & X4)|(Y & s1 & c1 & X1 & X2)]; rewrite X1 in R.
  - destruct (IH s1 c1 e1 (k + 1) out s' c' X2 R) as (e' & A1 & A2 & A3 & A4 & A5 & A6). exists e'. rewrite X4 in *.
    repeat (split; auto); [|lia]. rewrite A5. lia.
  - inversion R; subst. exists e. repeat (split; auto); [apply H| |lia]. cbn [oCalls]. rewrite X2. lia.
Qed.
(* It never fails: it returns, or the turns run out. *)
Lemma loop_total : forall fuel s c e k, holding s c e ->
  (exists out s' c', opt_loop fuel S fg og v s c k = (Ok out, s', c')) \/ (exists s' c', opt_loop fuel S fg og v s c k = (Hang, s', c')).
Proof.
  induction fuel as [|fuel IH]; intros s c e k H; [right; do 2 eexists; reflexivity|].
  destruct (turn s c e fuel k H) as [(e1 & s1 & c1 & X1 & X2 & X3 & X4)|(Y & s1 & c1 & X1 & X2)]; rewrite X1; eauto.
Qed.

(* An order that decreases a measure. *)
Lemma loop_measure : forall (mu : inst -> nat), (forall e e', meets e -> meets e' -> below e' e -> (mu e' < mu e)%nat) ->
  forall n s c e fuel k, holding s c e -> (mu e < n)%nat -> (n <= fuel)%nat ->
  exists out s' c', opt_loop fuel S fg og v s c k = (Ok out, s', c') /\ oCalls out <= k + Z.of_nat n.
Proof.
  intros mu D. induction n as [|n IH]; intros s c e fuel k H B L; [lia|]. destruct fuel as [|fuel]; [lia|].
  destruct (turn s c e fuel k H) as [(e1 & s1 & c1 & X1 & X2 & X3 & X4)|(Y & s1 & c1 & X1 & X2)]; rewrite X1.
  - pose proof (D e e1 (hd_meets _ _ _ H) (hd_meets _ _ _ X2) X3). destruct (IH s1 c1 e1 fuel (k + 1) X2) as (out & s' & c' & A & C); try lia.
    exists out, s', c'. split; auto. lia.
  - do 3 eexists. split; [reflexivity|]. cbn [oCalls]. lia.
Qed.

(* A strict partial order on the solutions. *)
Definition strict : Prop := (forall e, meets e -> ~ below e e) /\
  (forall e1 e2 e3, meets e1 -> meets e2 -> meets e3 -> below e1 e2 -> below e2 e3 -> below e1 e3).

Fixpoint insts_of (d : nat) : list inst :=
  match d with
  | O => [[]]
  | Datatypes.S d => flat_map (fun x => map (cons x) (insts_of d)) [BOT; ZERO; ONE]
  end.
Lemma insts_all : forall d e, valid_inst d e -> In e (insts_of d).
Proof.
  induction d as [|d IH]; intros e [L F].
  - destruct e; [simpl; auto|discriminate].
  - destruct e as [|x e]; [discriminate|]. inversion F; subst. cbn [insts_of]. apply in_flat_map. exists x. split.
    + destruct H1 as [-> |[-> | ->]]; simpl; auto.
    + apply in_map. apply IH. split; auto.
Qed.
Lemma insts_length : forall d, length (insts_of d) = (3 ^ d)%nat.
Proof. 
  induction d as [|d IH]; auto.
  change (insts_of (Datatypes.S d)) with (map (cons BOT) (insts_of d) ++ map (cons ZERO) (insts_of d) ++ map (cons ONE) (insts_of d) ++ []).
  rewrite !app_length, !map_length. cbn [length Nat.pow]. unfold inst in *. rewrite IH. lia.
Qed.

(* The solutions seen so far are different. *)
Lemma loop_strict : strict -> forall fuel s c e k seen, holding s c e -> NoDup (e :: seen) ->
  (forall x, In x seen -> meets x /\ below e x) -> (3 ^ Dim m <= fuel + length seen)%nat ->
  exists out s' c', opt_loop fuel S fg og v s c k = (Ok out, s', c') /\ oCalls out <= k + Z.of_nat (3 ^ Dim m - length seen).
Proof.
  intros [I T]. induction fuel as [|fuel IH]; intros s c e k seen H ND SB L.
  - exfalso. assert (X : (length (e :: seen) <= length (insts_of (Dim m)))%nat).
    { apply NoDup_incl_length; auto. intros x [<-|Hx]; apply insts_all; eapply satisfies_valid; [apply H|apply SB, Hx]. }
    rewrite insts_length in X. cbn [length] in X. lia.
  - assert (X : (length (e :: seen) <= length (insts_of (Dim m)))%nat).
    { apply NoDup_incl_length; auto. intros x [<-|Hx]; apply insts_all; eapply satisfies_valid; [apply H|apply SB, Hx]. }
    rewrite insts_length in X. cbn [length] in X.
    destruct (turn s c e fuel k H) as [(e1 & s1 & c1 & X1 & X2 & X3 & X4)|(Y & s1 & c1 & X1 & X2)]; rewrite X1.
    + destruct (IH s1 c1 e1 (k + 1) (e :: seen) X2) as (out & s' & c' & A & B).
      * constructor; auto. intros [Q|Q].
        -- subst e1. exact (I e (hd_meets _ _ _ H) X3).
        -- destruct (SB e1 Q) as [M1 M2]. apply (I e (hd_meets _ _ _ H)). apply (T e e1 e); auto; apply H.
      * intros x [<-|Hx]; [split; auto; apply H|]. destruct (SB x Hx) as [M1 M2]. split; auto. apply (T e1 e x); auto; [apply X2|apply H].
      * cbn [length]. lia.
      * exists out, s', c'. split; auto. cbn [length] in B. lia.
    + do 3 eexists. split; [reflexivity|]. cbn [oCalls]. lia.
Qed.

(* No minimum: the loop does not end. *)
Lemma loop_endless : (forall e, meets e -> exists e', meets e' /\ below e' e) ->
  forall fuel s c e k, holding s c e -> exists s' c', opt_loop fuel S fg og v s c k = (Hang, s', c').
Proof.
  intros D. induction fuel as [|fuel IH]; intros s c e k H; [do 2 eexists; reflexivity|].
  destruct (turn s c e fuel k H) as [(e1 & s1 & c1 & X1 & X2 & X3 & X4)|(Y & s1 & c1 & X1 & X2)]; rewrite X1; eauto.
  destruct (D e (hd_meets _ _ _ H)) as (e' & M & B). now elim (Y e' M).
Qed.
End Loop.
