(* Satisfiability of the formula encoded for a query. *)
From Coq Require Import DecimalString.
From Verif Require Import GoBase GoLemmas Cnf Query Walk Atoms Logop Spec Meaning Truth CnfSem QueryLemmas Sym AtomBase WalkLemmas AtomMain Form Master Block Ground.
Local Open Scope Z_scope.
Local Open Scope list_scope.

(* ---- names of auxiliary variables ---- *)

(* Two uses of a name stand for the same thing. *)
Definition same_key (t : tree) (k k' : key) : Prop := forall E i x, keyval t E k i x = keyval t E k' i x.
Definition clean (t : tree) (p : form) : Prop :=
  (forall n k k', In (n, k) (auxs p) -> In (n, k') (auxs p) -> same_key t k k') /\
  (forall n k, In (n, k) (auxs p) -> ~ In n (declared p)).
(* Nothing of a formula has been given a number. *)
Definition unrelated (vm : varman) (p : form) : Prop :=
  forall u, mapped vm u -> ~ In (uname u) (declared p) /\ ~ In (uname u) (map fst (auxs p)).

Definition aux_find (l : list (string * key)) (n : string) : option key :=
  option_map snd (find (fun p => String.eqb (fst p) n) l).
Lemma aux_find_some : forall l n k, aux_find l n = Some k -> In (n, k) l.
Proof.
  intros l n k H. unfold aux_find in H. destruct (find _ l) as [[n' k']|] eqn:E; [|discriminate].
  apply find_some in E as [H1 H2]. cbn [fst snd option_map] in *. apply String.eqb_eq in H2. congruence.
Qed.
Lemma aux_find_none : forall l n, aux_find l n = None -> ~ In n (map fst l).
Proof.
  intros l n H I. unfold aux_find in H. destruct (find _ l) as [|] eqn:E; [discriminate|].
  apply in_map_iff in I as ([n' k] & <- & I). pose proof (find_none _ _ E _ I) as X. cbn [fst] in X. now rewrite String.eqb_refl in X.
Qed.

(* What a valuation says about the triples. *)
Definition read (vm : varman) (r : valuation) : tval :=
  fun u => match vlookup (vm_vars vm) u with Some n => r n | None => false end.
Lemma read_matches : forall vm r, matches vm r (read vm r).
Proof. intros vm r u n H. unfold read. now rewrite H. Qed.

Definition canon_of (t : tree) (p : form) (base : tval) (E : env) : tval := fun u =>
  let '(n, i, x) := u in
  if inb_str n (declared p) then feat (E n) i =? x
  else match aux_find (auxs p) n with Some k => keyval t E k i x | None => base u end.

Lemma evalF_ext : forall d t p G E E', lexical G p -> (forall w, In w G \/ In w (declared p) -> E w = E' w) ->
  (evalF d t E p <-> evalF d t E' p).
Proof.
  intros d t. induction p as [|a|p IH|p IHp q IHq|p IHp q IHq|w p IH]; intros G E E' HL H; cbn [lexical evalF declared] in *.
  - tauto.
  - apply holds_ext. intros v Hv. auto.
  - rewrite (IH G E E'); tauto.
  - destruct HL. rewrite (IHp G E E'), (IHq G E E'); try tauto; intros w Hw; apply H; rewrite in_app_iff; tauto.
  - destruct HL. rewrite (IHp G E E'), (IHq G E E'); try tauto; intros w Hw; apply H; rewrite in_app_iff; tauto.
  - apply (IH (w :: G)); auto. intros w' Hw. apply H. simpl in *. tauto.
Qed.

Section FormSat.
Variable m : model.
Variable t : tree.

Theorem form_sat : forall p vm, (0 < Dim m)%nat -> atoms_good m t p -> lexical [] p -> clean t p ->
  vm_inv vm -> unrelated vm p ->
  exists f vm', encF m p vm = Ok (f, vm') /\ vm_inv vm' /\ vm_ext vm vm' /\ cnf_wf f /\ tv f <= vm_topv vm' /\
    (forall w i x, In w (declared p) -> in_range (Dim m) i -> valid_feat x -> mapped vm' (w, i, x)) /\
    (forall r, Con r f = true ->
       (forall w, In w (declared p) -> rep (Dim m) (read vm' r) w (decode (Dim m) (read vm' r) w)) /\
       (Sem r f = true <-> evalF (Dim m) t (decode (Dim m) (read vm' r)) p)) /\
    (forall E r0, valid_env (Dim m) E ->
       exists r, agree (vm_topv vm) r0 r /\ Con r f = true /\
         (forall w, In w (declared p) -> decode (Dim m) (read vm' r) w = E w) /\
         (Sem r f = true <-> evalF (Dim m) t E p)).
Proof.
  intros p vm Hd HG HL (HC1 & HC2) I HU.
  set (D := fun w => In w (declared p)).
  assert (CD : forall base E w, D w -> forall i x, canon_of t p base E (w, i, x) = (feat (E w) i =? x)).
  { intros base E w Hw i x. unfold canon_of. apply inb_str_spec in Hw. now rewrite Hw. }
  assert (CA : forall base n k, In (n, k) (auxs p) -> ~ D n /\ forall E i x, canon_of t p base E (n, i, x) = keyval t E k i x).
  { intros base n k Hn. split; [eapply HC2; eauto|]. intros E i x. unfold canon_of.
    destruct (inb_str n (declared p)) eqn:EI; [apply inb_str_spec in EI; exfalso; eapply HC2; eauto|].
    destruct (aux_find (auxs p) n) as [k'|] eqn:EA.
    - apply aux_find_some in EA. apply (HC1 n k' k); auto.
    - exfalso. eapply aux_find_none; eauto. apply in_map_iff. exists (n, k). auto. }
  assert (X : forall base, exists f vm', encF m p vm = Ok (f, vm') /\
     encodes m D (canon_of t p base) vm f vm' (declared p) (fun E => evalF (Dim m) t E p)).
  { intros base. apply (encF_encodes m t D (canon_of t p base) Hd (CD base) p []); auto. intros w []. }
  destruct (X (fun _ => false)) as (f & vm' & EE & X0). exists f, vm'. split; auto.
  assert (X1 : forall base, encodes m D (canon_of t p base) vm f vm' (declared p) (fun E => evalF (Dim m) t E p)).
  { intros base. destruct (X base) as (f1 & vm1 & E1 & Y). congruence. }
  clear X. destruct X0 as (A1 & A2 & A3 & A4 & A5 & A6 & A7 & A8 & _).
  repeat (split; [assumption|]).
  assert (NK : forall w, D w -> ~ known vm w).
  { intros w Dw K. destruct (HU _ K) as [Y _]. apply Y. exact Dw. }
  assert (WH : forall w, D w -> wholly m vm' w).
  { intros w Dw. apply A7; auto. intros w' Dw' K. exfalso. eapply NK; eauto. }
  split; [intros w i x Hw Hi Hx; apply WH; auto|].
  assert (SD : forall r, Con r f = true ->
       (forall w, In w (declared p) -> rep (Dim m) (read vm' r) w (decode (Dim m) (read vm' r) w)) /\
       (Sem r f = true <-> evalF (Dim m) t (decode (Dim m) (read vm' r)) p)).
  { intros r C. destruct (A8 r (read vm' r) (read_matches vm' r)) as [B1 B2].
    - intros w Dw K. exfalso. eapply NK; eauto.
    - exact C.
    - split; auto. }
  split; [exact SD|]. intros E r0 V.
  destruct (X1 (read vm r0)) as (_ & _ & _ & _ & _ & _ & _ & _ & A9).
  destruct (A9 E r0) as (r & R1 & R2 & R3); auto.
  { intros u n Hu. unfold canon_of. destruct u as [[w i] x].
    assert (M : mapped vm (w, i, x)) by (unfold mapped; congruence).
    destruct (HU _ M) as [Y1 Y2]. unfold uname in *. cbn [fst] in *.
    destruct (inb_str w (declared p)) eqn:EI; [apply inb_str_spec in EI; contradiction|].
    destruct (aux_find (auxs p) w) as [k'|] eqn:EA.
    - apply aux_find_some in EA. exfalso. apply Y2. apply in_map_iff. exists (w, k'). auto.
    - unfold read. now rewrite Hu. }
  assert (DE : forall w, In w (declared p) -> decode (Dim m) (read vm' r) w = E w).
  { intros w Hw. apply decode_rep. split; [apply V|]. intros i Hi x Hx.
    pose proof (WH w Hw i x Hi Hx) as M. unfold mapped in M. unfold read.
    destruct (vlookup (vm_vars vm') (w, i, x)) as [n|] eqn:EV; [|congruence]. rewrite (R2 _ _ EV). now apply CD. }
  exists r. split; auto. split; auto. split; auto. destruct (SD r R3) as [_ ->].
  apply (evalF_ext _ _ p []); auto. intros w [[]|Hw]. auto.
Qed.

Corollary form_satisfiable : forall p vm f vm', (0 < Dim m)%nat -> atoms_good m t p -> lexical [] p -> clean t p ->
  vm_inv vm -> unrelated vm p -> encF m p vm = Ok (f, vm') ->
  ((exists r, Con r f = true /\ Sem r f = true) <-> exists E, valid_env (Dim m) E /\ evalF (Dim m) t E p).
Proof.
  intros p vm f vm' Hd HG HL HC I HU H. destruct (form_sat p vm Hd HG HL HC I HU) as (f1 & vm1 & E1 & _ & _ & _ & _ & _ & S & C).
  rewrite E1 in H. injection H as -> ->. split.
  - intros (r & Cr & Sr). destruct (S r Cr) as [_ X]. eexists. split; [|apply X; exact Sr]. intros w. apply decode_valid.
  - intros (E & V & P). destruct (C E (fun _ => false) V) as (r & _ & Cr & _ & X). exists r. split; auto. now apply X.
Qed.
End FormSat.

(* ---- assignments to scoped names and assignments to places ---- *)

Fixpoint unpath (l : list string) : path :=
  match l with
  | a :: b :: r => (a, match NilZero.int_of_string b with Some z => Z.of_int z | None => 0 end) :: unpath r
  | _ => []
  end.
Lemma unpath_fields : forall p, unpath (path_fields p) = p.
Proof.
  induction p as [|[a z] p IH]; simpl; auto. rewrite IH. pose proof (int_of_itoa z) as X.
  destruct (NilZero.int_of_string (itoa z)); simpl in X; congruence.
Qed.
Definition unname (F : string -> path -> inst) : env := fun n =>
  match split_on us n with v :: l => F v (unpath l) | [] => F ""%string [] end.

Definition clear_path (p : path) : Prop := Forall (fun k => no_sep (fst k)) p.
Lemma fields_no_us : forall p, clear_path p -> forallb (no_char us) (path_fields p) = true.
Proof. induction 1 as [|[a z] p H1 H2 IH]; auto. simpl. rewrite itoa_no_us, IH. unfold no_sep in H1. cbn [fst] in H1. now rewrite H1. Qed.
Lemma unname_pname : forall F v p, no_sep v -> clear_path p -> unname F (pname v p) = F v p.
Proof.
  intros F v p Hv Hp. unfold unname, pname. rewrite split_join; [|discriminate|].
  - now rewrite unpath_fields.
  - simpl. rewrite fields_no_us by auto. unfold no_sep in Hv. now rewrite Hv.
Qed.
Lemma unname_valid : forall d F, (forall v p, valid_inst d (F v p)) -> valid_env d (unname F).
Proof. intros d F H n. unfold unname. destruct (split_on us n); apply H. Qed.

Lemma owned_clear : forall q p v p', Forall no_sep (all_vars q) -> Forall no_sep (all_ids q) -> clear_path p ->
  owned p q v p' -> no_sep v /\ clear_path p'.
Proof.
  induction q as [|a|q IH|q1 IH1 q2 IH2|q1 IH1 q2 IH2|v q IH|c q IH]; intros p w p' Hv Hi Hp H; cbn [owned all_vars all_ids] in *; try contradiction.
  - eauto.
  - apply Forall_app in Hv as [], Hi as []. destruct H; eauto.
  - apply Forall_app in Hv as [], Hi as []. destruct H; eauto.
  - inversion Hv; subst. eauto.
  - inversion Hi; subst. destruct H as [i H]. cbv zeta in H.
    assert (HP : clear_path (p ++ [(cID c, Z.of_nat i)])) by (apply Forall_app; split; auto; constructor; auto).
    destruct H as [[H ->]|H]; [|eauto]. split; auto. rewrite Forall_forall in Hv. apply Hv.
    clear - H. induction q as [|a|q IH|q1 IH1 q2 IH2|q1 IH1 q2 IH2|v q IH|c q IH]; cbn [block_vars all_vars] in *; auto; try contradiction.
    + rewrite in_app_iff in *; tauto.
    + rewrite in_app_iff in *; tauto.
    + simpl in *; tauto.
Qed.
Lemma block_all : forall q v, In v (block_vars q) -> In v (all_vars q).
Proof.
  intros q w H. induction q as [|a|q IH|q1 IH1 q2 IH2|q1 IH1 q2 IH2|v q IH|c q IH]; cbn [block_vars all_vars] in *; auto; try contradiction.
  - rewrite in_app_iff in *; tauto.
  - rewrite in_app_iff in *; tauto.
  - simpl in *; tauto.
Qed.

Lemma evalN_local : forall d t q F F' p nm K B G ids, scoped B G ids q -> (forall v, In v G -> In v B) ->
  (forall v, In v G -> F v (nm v) = F' v (nm v)) ->
  (forall v, In v (block_vars q) -> In v B /\ nm v = p /\ F v p = F' v p) ->
  (forall v p', owned p q v p' -> F v p' = F' v p') ->
  (evalN d t F p nm K q <-> evalN d t F' p nm K q).
Proof.
  intros d t q. induction q as [|a|q IH|q1 IH1 q2 IH2|q1 IH1 q2 IH2|v q IH|c q IH]; intros F F' p nm K B G ids S HGB H1 H2 H3;
    cbn [evalN owned scoped block_vars] in *.
  - tauto.
  - apply holds_ext. intros v Hv. rewrite vars_bind in Hv. auto.
  - rewrite (IH F F' p nm K B G ids); auto; tauto.
  - destruct S. rewrite (IH1 F F' p nm K B G ids), (IH2 F F' p nm K B G ids); auto; try tauto; intros; apply H2, in_or_app; auto.
  - destruct S. rewrite (IH1 F F' p nm K B G ids), (IH2 F F' p nm K B G ids); auto; try tauto; intros; apply H2, in_or_app; auto.
  - destruct (H2 v) as (X1 & X2 & X3); [simpl; auto|]. apply (IH F F' p nm K B (v :: G) ids); auto.
    + intros w [<-|Hw]; auto.
    + intros w [<-|Hw]; auto. now rewrite X2.
    + intros w Hw. apply H2. simpl; auto.
  - destruct S as (S1 & S2 & S3).
    assert (X : forall i e, let p' := p ++ [(cID c, Z.of_nat i)] in
       evalN d t F p' (place nm (block_vars q) p') ((cID c, e) :: K) q <-> evalN d t F' p' (place nm (block_vars q) p') ((cID c, e) :: K) q).
    { intros i e p'. apply (IH F F' p' _ _ (block_vars q ++ B) G (cID c :: ids)); auto.
      - intros w Hw. apply in_or_app; auto.
      - intros w Hw. unfold place. destruct (inb_str w (block_vars q)) eqn:EI; auto.
        apply inb_str_spec in EI. exfalso. eapply S2; eauto.
      - intros w Hw. split; [apply in_or_app; auto|]. split.
        + unfold place. apply inb_str_spec in Hw. now rewrite Hw.
        + apply H3. exists i. left. auto.
      - intros w p1 Hw. apply H3. exists i. right. exact Hw. }
    split; intros Y i e He; specialize (Y i e He); cbv zeta in *; apply X; exact Y.
Qed.

(* ---- queries ---- *)

Section QuerySat.
Variable m : model.
Variable t : tree.

(* The query with its ForAllGuarded's written out and its names scoped. *)
Definition ground (q : query) : form := fst (elab (node_instances (Dim m) t) q S0).

Lemma inv_S0 : forall B, inv S0 [] (fun _ => []) [] B [] [].
Proof. intros B. constructor; simpl; auto; try contradiction. constructor. Qed.

Lemma ground_spec : forall q, scoped (block_vars q) [] [] q -> grounds m t S0 [] (fun _ => []) [] (block_vars q) [] [] q.
Proof. intros q S. apply ground_ok; auto. apply inv_S0. Qed.

Lemma scoped_no_nil : forall q B G ids, scoped B G ids q -> no_nil q.
Proof.
  induction q as [|a|q IH|q1 IH1 q2 IH2|q1 IH1 q2 IH2|v q IH|c q IH]; intros B G ids H; cbn [scoped no_nil] in *; auto.
  - eauto.
  - destruct H; split; eauto.
  - destruct H; split; eauto.
  - eauto.
  - destruct H as (_ & _ & H). eauto.
Qed.

Lemma ground_true : forall q, wf_query m t q ->
  ((exists E, valid_env (Dim m) E /\ evalF (Dim m) t E (ground q)) <-> true_query (Dim m) t q).
Proof.
  intros q [W1 W2 W3 W4 [W5 W6]]. destruct (ground_spec q W1) as (_ & _ & G3 & _). fold (ground q) in G3.
  rewrite <- (evalN_true _ _ _ W2 W3). split.
  - intros (E & V & P). apply G3 in P. exists (fun v p => E (pname v p)). split; [|exact P]. intros v p. apply V.
  - intros (F & V & P). exists (unname F). split; [now apply unname_valid|]. apply G3.
    eapply (evalN_local _ _ q _ F [] (fun _ => []) [] (block_vars q) [] []); auto.
    + intros v [].
    + intros v [].
    + intros v Hv. split; auto. split; auto. apply unname_pname; [|constructor].
      rewrite Forall_forall in W5. apply W5, block_all; auto.
    + intros v p' H. apply (owned_clear q) in H as [H1 H2]; auto; [|constructor]. now apply unname_pname.
Qed.

Theorem query_sat : forall q vm, (0 < Dim m)%nat -> (has_all q = true -> is_dtree m t) ->
  wf_query m t q -> clean t (ground q) -> vm_inv vm -> unrelated vm (ground q) ->
  exists f vm' s', enc q (mkCtx S0 vm m) = (Ok f, mkCtx s' vm' m) /\ vm_inv vm' /\ vm_ext vm vm' /\ cnf_wf f /\ tv f <= vm_topv vm' /\
    ((exists r, Con r f = true /\ Sem r f = true) <-> true_query (Dim m) t q).
Proof.
  intros q vm Hd HA W HC I HU. pose proof W as [W1 W2 W3 W4 [W5 W6]].
  destruct (ground_spec q W1) as (G1 & G2 & G3 & G4 & G5 & G6). fold (ground q) in *. cbn [map] in G5.
  destruct (form_sat m t (ground q) vm Hd (G4 W4) G5 HC I HU) as (f & vm' & E & A1 & A2 & A3 & A4 & _).
  exists f, vm', (snd (elab (node_instances (Dim m) t) q S0)). split.
  - apply (enc_elab m t q (scoped_no_nil _ _ _ _ W1) HA S0 vm f vm'); auto. apply (i_sc _ _ _ _ _ _ _ (inv_S0 [])).
  - split; [exact A1|]. split; [exact A2|]. split; [exact A3|]. split; [exact A4|]. rewrite <- (ground_true q W).
    apply (form_satisfiable m t (ground q) vm f vm'); auto.
Qed.
End QuerySat.
