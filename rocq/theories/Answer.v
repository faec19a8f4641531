(* What the CNF of a query says: its models give instances to the outermost
   variables that make the query true, and all such instances are given. *)
From Verif Require Import GoBase GoLemmas Cnf Query Walk Atoms Logop Spec Meaning Truth CnfSem QueryLemmas Sym AtomBase WalkLemmas AtomMain Form Master Block Ground Sat AtomCnf Evolve Names.
Local Open Scope Z_scope.
Local Open Scope list_scope.

Lemma elab_scopes : forall insts q s, scopes s = [] -> scopes (snd (elab insts q s)) = [].
Proof. intros insts q s H. pose proof (elab_len insts q s) as L. rewrite H in L. destruct (scopes (snd (elab insts q s))); [auto|discriminate]. Qed.

Lemma outer_declared : forall insts q s v, scopes s = [] -> In v (block_vars q) -> In v (declared (fst (elab insts q s))).
Proof.
  intros insts. induction q as [|a|q IH|q1 IH1 q2 IH2|q1 IH1 q2 IH2|w q IH|c q IH]; intros s v Hs Hv; cbn [block_vars elab] in *; try contradiction.
  - specialize (IH s v Hs Hv). destruct (elab insts q s). exact IH.
  - pose proof (elab_scopes insts q1 s Hs) as Hs1. specialize (IH1 s v Hs). destruct (elab insts q1 s) as [p1 s1]. cbn [snd] in Hs1.
    specialize (IH2 s1 v Hs1). destruct (elab insts q2 s1) as [p2 s2]. cbn [fst declared] in *. rewrite in_app_iff in *. tauto.
  - pose proof (elab_scopes insts q1 s Hs) as Hs1. specialize (IH1 s v Hs). destruct (elab insts q1 s) as [p1 s1]. cbn [snd] in Hs1.
    specialize (IH2 s1 v Hs1). destruct (elab insts q2 s1) as [p2 s2]. cbn [fst declared] in *. rewrite in_app_iff in *. tauto.
  - assert (Hs1 : scopes (AddVar s w) = []) by (now rewrite AddVar_scopes). specialize (IH (AddVar s w) v Hs1).
    destruct (elab insts q (AddVar s w)) as [p s2]. cbn [fst declared] in *. destruct Hv as [->|Hv]; [left|right; auto].
    unfold sname. rewrite Hs1, firstn_nil. reflexivity.
Qed.

Lemma enc_scoper : forall q m vm r c', vm_inv vm -> enc q (mkCtx S0 vm m) = (r, c') -> r <> Hang -> cScoper c' = S0 /\ cModel c' = m.
Proof.
  intros q m vm r c' I E N. destruct (safe_enc q (mkCtx S0 vm m) r c') as [V _]; auto; [split; [exact I|apply sc_inv_init]|exact Logic.I|].
  pose proof (ev_scopes _ _ V) as S. destruct (ev_vars _ _ V) as (l & A1 & A2). pose proof (ev_model _ _ V) as EM. cbn [cScoper cModel] in *.
  split; [|exact EM]. assert (l = []) as -> by (destruct l as [|x l]; auto; inversion A2 as [|? ? (X & _) _]; cbn in X; congruence).
  destruct (cScoper c') as [a b]. cbn [scopes svars app] in *. unfold S0 in *. cbn in *. congruence.
Qed.

Record answer (m : model) (t : tree) (q : query) (vm : varman) (f : CNF) (vm' : varman) : Prop := {
  an_inv : vm_inv vm';
  an_ext : vm_ext vm vm';
  an_wf : cnf_wf f;
  an_topv : tv f <= vm_topv vm';
  an_mapped : forall v i x, In v (block_vars q) -> in_range (Dim m) i -> valid_feat x -> mapped vm' (v, i, x);
  an_one : forall r v, Con r f = true -> In v (block_vars q) -> rep (Dim m) (read vm' r) v (decode (Dim m) (read vm' r) v);
  an_sound : forall r, Con r f = true -> Sem r f = true ->
     exists E, valid_env (Dim m) E /\ matrix (Dim m) t E [] q /\ forall v, In v (block_vars q) -> E v = decode (Dim m) (read vm' r) v;
  an_complete : forall E r0, valid_env (Dim m) E ->
     matrix (Dim m) t E [] q ->
     exists r, agree (vm_topv vm) r0 r /\ Con r f = true /\ Sem r f = true /\
       forall v, In v (block_vars q) -> decode (Dim m) (read vm' r) v = E v;
  an_free : forall E r0, valid_env (Dim m) E ->
     exists r, agree (vm_topv vm) r0 r /\ Con r f = true /\
       forall v, In v (block_vars q) -> decode (Dim m) (read vm' r) v = E v
}.

Theorem query_answer : forall m t q vm, (0 < Dim m)%nat -> (has_all q = true -> is_dtree m t) ->
  wf_query m t q -> clean t (ground m t q) -> vm_inv vm -> unrelated vm (ground m t q) ->
  exists f vm', enc q (mkCtx S0 vm m) = (Ok f, mkCtx S0 vm' m) /\ answer m t q vm f vm'.
Proof.
  intros m t q vm Hd HA W HC I HU. pose proof W as [W1 W2 W3 W4 [W5 W6]].
  destruct (ground_spec m t q W1) as (G1 & G2 & G3 & G4 & G5 & G6). fold (ground m t q) in *. cbn [map] in G5.
  destruct (form_sat m t (ground m t q) vm Hd (G4 W4) G5 HC I HU) as (f & vm' & E & A1 & A2 & A3 & A4 & A5 & A6 & A7).
  exists f, vm'.
  assert (EN : enc q (mkCtx S0 vm m) = (Ok f, mkCtx (snd (elab (node_instances (Dim m) t) q S0)) vm' m)).
  { apply (enc_elab m t q (scoped_no_nil _ _ _ _ W1) HA S0 vm f vm'); auto. apply (i_sc _ _ _ _ _ _ _ (inv_S0 [])). }
  assert (OD : forall v, In v (block_vars q) -> In v (declared (ground m t q))) by (intros v Hv; now apply outer_declared).
  split.
  - rewrite EN. destruct (enc_scoper q m vm _ _ I EN) as [X _]; [discriminate|]. cbn [cScoper] in X. rewrite X. reflexivity.
  - constructor; auto.
    + intros r v C Hv. apply (A6 r C). auto.
    + intros r C S. destruct (A6 r C) as [_ X]. apply X, G3 in S.
      exists (fun v => decode (Dim m) (read vm' r) v). split; [intros v; apply decode_valid|]. split; [|reflexivity].
      apply (evalN_matrix _ _ q (fun v p => decode (Dim m) (read vm' r) (pname v p)) [] (fun _ => [])); auto.
      intros v p. apply decode_valid.
    + intros E0 r0 V M.
      destruct (matrix_evalN (Dim m) t q (fun v _ => E0 v) [] (fun _ => []) []) as (F & VF & FF & HF); auto.
      destruct (A7 (unname F) r0 (unname_valid _ _ VF)) as (r' & Q1 & Q2 & Q3 & Q4). exists r'.
      split; auto. split; auto. split.
      * apply Q4. apply G3. eapply (evalN_local _ _ q _ F [] (fun _ => []) [] (block_vars q) [] []); auto.
        -- intros v [].
        -- intros v [].
        -- intros v Hv. split; auto. split; auto. apply unname_pname; [|constructor].
           rewrite Forall_forall in W5. apply W5, block_all; auto.
        -- intros v p' H. apply (owned_clear q) in H as [H1 H2]; auto; [|constructor]. now apply unname_pname.
      * intros v Hv. rewrite Q3 by auto.
        assert (unname F v = F v []) as ->.
        { change v with (pname v []) at 1. apply unname_pname; [|constructor]. rewrite Forall_forall in W5. apply W5, block_all; auto. }
        apply FF. intros O. apply owned_longer in O. simpl in O. lia.
    + intros E0 r0 V. destruct (A7 E0 r0 V) as (r & R1 & R2 & R3 & _). exists r. auto.
Qed.

Lemma unrelated_init : forall p k, unrelated (mkVarman k []) p.
Proof. intros p k u M. exfalso. apply M. reflexivity. Qed.

(* In a new context, with generators that keep the auxiliary variables apart. *)
Corollary fresh_answer : forall m t q N, (0 < Dim m)%nat -> (has_all q = true -> is_dtree m t) ->
  wf_query m t q -> tidy N (Dim m) q ->
  exists f vm', enc q (BasicQContext m) = (Ok f, mkCtx S0 vm' m) /\ answer m t q (mkVarman 0 []) f vm'.
Proof.
  intros m t q N Hd HA W T. apply query_answer; auto.
  - eapply tidy_clean; eauto; apply W.
  - apply vm_inv_init.
  - apply unrelated_init.
Qed.

(* A satisfying valuation exists iff the query is true. *)
Lemma answer_sat : forall m t q vm f vm', answer m t q vm f vm' ->
  ((exists r, Models r f = true) <-> true_query (Dim m) t q).
Proof.
  intros m t q vm f vm' A. split.
  - intros (r & H). unfold Models in H. apply andb_true_iff in H as [S C].
    destruct (an_sound _ _ _ _ _ _ A r C S) as (E & V & M & _). exists E. auto.
  - intros (E & V & M). destruct (an_complete _ _ _ _ _ _ A E (fun _ => false) V M) as (r & _ & C & S & _).
    exists r. unfold Models. now rewrite C, S.
Qed.
