(* What Encoding does to the context, for every query, in every context. *)
From Verif Require Import GoBase GoLemmas Cnf Query Walk Atoms Logop Spec CnfSem QueryLemmas Sym AtomBase Form Master Ground AtomCnf.
Local Open Scope Z_scope.
Local Open Scope list_scope.

Definition bounded (f : CNF) (vm : varman) : Prop := cnf_wf f /\ tv f <= vm_topv vm.

Lemma bounded_ext : forall f vm vm', vm_ext vm vm' -> bounded f vm -> bounded f vm'.
Proof. intros f vm vm' (H & _) [W T]. split; auto. lia. Qed.

(* Variables recorded since: all at the present height, none known before. *)
Definition new_vars (s s' : scoper) : Prop :=
  exists l, svars s' = l ++ svars s /\
    Forall (fun kv => scopes s <> [] /\ snd kv = length (scopes s) /\ slookup (svars s) (fst kv) = None) l.

Record evolves (c c' : ctx) : Prop := {
  ev_model : cModel c' = cModel c;
  ev_good : good_ctx c';
  ev_vm : vm_ext (cVM c) (cVM c');
  ev_scopes : scopes (cScoper c') = scopes (cScoper c);
  ev_vars : new_vars (cScoper c) (cScoper c')
}.

Lemma slookup_app : forall l l' v, slookup (l ++ l') v = match slookup l v with Some n => Some n | None => slookup l' v end.
Proof. induction l as [|[k n] l IH]; intros l' v; simpl; auto. destruct (String.eqb k v); auto. Qed.

Lemma new_vars_refl : forall s, new_vars s s.
Proof. intros s. exists []. split; auto. Qed.
Lemma new_vars_trans : forall s1 s2 s3, scopes s2 = scopes s1 -> new_vars s1 s2 -> new_vars s2 s3 -> new_vars s1 s3.
Proof.
  intros s1 s2 s3 E (l1 & A1 & A2) (l2 & B1 & B2). exists (l2 ++ l1). split; [rewrite B1, A1; apply app_assoc|].
  apply Forall_app. split; auto. eapply Forall_impl; [|exact B2]. intros [k n] (H0 & H1 & H2). rewrite E in H0, H1.
  split; auto. split; auto. cbn [fst] in *. rewrite A1, slookup_app in H2. destruct (slookup l1 k); [discriminate|auto].
Qed.

Lemma evolves_refl : forall c, good_ctx c -> evolves c c.
Proof. intros c G. split; auto; [apply vm_ext_refl|apply new_vars_refl]. Qed.
Lemma evolves_trans : forall a b c, evolves a b -> evolves b c -> evolves a c.
Proof.
  intros a b c [A1 A2 A3 A4 A5] [B1 B2 B3 B4 B5]. split; auto; try congruence.
  - eapply vm_ext_trans; eauto.
  - eapply new_vars_trans; eauto.
Qed.

(* x keeps the context good; given P before, what it returns satisfies Q. *)
Definition safe {A} (P : varman -> Prop) (Q : A -> varman -> Prop) (x : M A) : Prop :=
  forall c r c', good_ctx c -> P (cVM c) -> x c = (r, c') -> r <> Hang ->
    evolves c c' /\ forall a, r = Ok a -> Q a (cVM c').

Definition anything (vm : varman) : Prop := True.
Definition nothing {A} (a : A) (vm : varman) : Prop := True.

Lemma safe_bind : forall A B (x : M A) (f : A -> M B) P (Q : A -> varman -> Prop) R,
  safe P Q x -> (forall a, safe (Q a) R (f a)) -> safe P R (bind x f).
Proof.
  intros A B x f P Q R Hx Hf c r c' G HP E N. unfold bind in E. destruct (x c) as [r1 c1] eqn:E1.
  destruct r1 as [a|e| |].
  - destruct (Hx c _ c1 G HP E1) as [V1 Q1]; [discriminate|].
    destruct (Hf a c1 r c' (ev_good _ _ V1) (Q1 a eq_refl) E N) as [V2 Q2]. split; auto. eapply evolves_trans; eauto.
  - injection E as <- <-. destruct (Hx c _ c1 G HP E1) as [V1 Q1]; [discriminate|]. split; auto. discriminate.
  - injection E as <- <-. destruct (Hx c _ c1 G HP E1) as [V1 Q1]; [discriminate|]. split; auto. discriminate.
  - injection E as <- <-. congruence.
Qed.

Lemma safe_wrap : forall A p (x : M A) P Q, safe P Q x -> safe P Q (wrap p x).
Proof.
  intros A p x P Q Hx c r c' G HP E N. unfold wrap in E. destruct (x c) as [r1 c1] eqn:E1.
  destruct r1 as [a|e| |]; injection E as <- <-; try (apply (Hx c _ c1 G HP E1 N)).
  destruct (Hx c _ c1 G HP E1) as [V1 Q1]; [discriminate|]. split; auto. discriminate.
Qed.

Lemma safe_fail : forall A e P (Q : A -> varman -> Prop), safe P Q (fail e).
Proof. intros A e P Q c r c' G HP E N. injection E as <- <-. split; [now apply evolves_refl|]. discriminate. Qed.
Lemma safe_lift : forall A (x : res A) P, safe P nothing (lift x).
Proof. intros A x P c r c' G HP E N. injection E as <- <-. split; [now apply evolves_refl|]. intros; exact I. Qed.
Lemma safe_ret : forall A (a : A) (P : varman -> Prop) (Q : A -> varman -> Prop), (forall vm, P vm -> Q a vm) -> safe P Q (ret a).
Proof. intros A a P Q H c r c' G HP E N. injection E as <- <-. split; [now apply evolves_refl|]. intros b [= <-]. auto. Qed.

Lemma safe_frame : forall A (x : M A) P Q (F : varman -> Prop), (forall vm vm', vm_ext vm vm' -> F vm -> F vm') ->
  safe P Q x -> safe (fun vm => P vm /\ F vm) (fun a vm => Q a vm /\ F vm) x.
Proof.
  intros A x P Q F HF Hx c r c' G [HP HFc] E N. destruct (Hx c r c' G HP E N) as [V H]. split; auto.
  intros a Ea. split; auto. eapply HF; [|exact HFc]. apply V.
Qed.
Lemma safe_weaken : forall A (x : M A) (P P' : varman -> Prop) (Q Q' : A -> varman -> Prop),
  safe P Q x -> (forall vm, P' vm -> P vm) -> (forall a vm, Q a vm -> Q' a vm) -> safe P' Q' x.
Proof. intros A x P P' Q Q' H HP HQ c r c' G HP' E N. destruct (H c r c' G (HP _ HP') E N) as [V K]. split; auto. Qed.

Lemma safe_AddVar : forall v, safe anything nothing (m_AddVar v).
Proof.
  intros v c r c' [I J] _ E _. unfold m_AddVar in E. injection E as <- <-. split; [|intros; exact Logic.I].
  split; cbn [set_scoper cModel cScoper cVM]; auto.
  - split; auto. now apply sc_inv_AddVar.
  - apply vm_ext_refl.
  - apply AddVar_scopes.
  - unfold AddVar. destruct (Nat.eqb_spec (length (scopes (cScoper c))) 0) as [L|L]; [apply new_vars_refl|].
    destruct (slookup (svars (cScoper c)) v) eqn:ES; [apply new_vars_refl|].
    exists [(v, length (scopes (cScoper c)))]. split; auto. constructor; auto. cbn [fst snd]. split; auto.
    intros C. rewrite C in L. now apply L.
Qed.

Lemma evolves_vm : forall s vm vm' m, vm_inv vm' -> vm_ext vm vm' -> sc_inv s -> evolves (mkCtx s vm m) (mkCtx s vm' m).
Proof. intros s vm vm' m I X J. split; auto. split; auto. apply new_vars_refl. Qed.

Lemma safe_enc_atom : forall a, safe anything bounded (enc_atom a).
Proof.
  intros a [s vm m] r c' [I J] _ E N. unfold enc_atom in E. cbn [cVM cScoper] in *.
  destruct (atom_enc (mkCtx s vm m) a) as [[b|es]|e| |].
  - injection E as <- <-. split; [now apply evolves_refl|]. intros f [= <-].
    split; [destruct b; [apply wf_True|apply wf_False]|]. destruct b; simpl; apply I.
  - destruct (run_emits vm es) as [f vm'] eqn:ER. injection E as <- <-.
    pose proof (run_emits_spec es vm I) as (G & W & T & _). rewrite ER in *. cbn [fst snd set_vm cVM] in *.
    split; [apply evolves_vm; auto; apply G|]. intros g [= <-]. split; auto.
  - injection E as <- <-. split; [now apply evolves_refl|]. discriminate.
  - injection E as <- <-. split; [now apply evolves_refl|]. discriminate.
  - injection E as <- <-. congruence.
Qed.

Lemma safe_encodeI : forall v, safe anything bounded (encodeI v).
Proof.
  intros v [s vm m] r c' [I J] _ E N. cbn [cVM cScoper] in *. unfold encodeI, bind, m_ScopeVar in E. cbn [cScoper] in E.
  rewrite ScopeVar_ok in E by auto. cbn [cVM cModel] in E.
  destruct (CNFVarExists _ _).
  - injection E as <- <-. split; [now apply evolves_refl|]. intros f [= <-]. split; [apply wf_True|]. apply I.
  - destruct (run_emits _ _) as [f vm'] eqn:ER. injection E as <- <-.
    match type of ER with run_emits _ ?es = _ => pose proof (run_emits_spec es vm I) as (G & W & T & _) end.
    rewrite ER in *. cbn [fst snd set_vm cVM] in *.
    split; [apply evolves_vm; auto; apply G|]. intros g [= <-]. split; auto.
Qed.

Lemma safe_Negate : forall f, safe (bounded f) bounded (m_Negate f).
Proof.
  intros f [s vm m] r c' [I J] [W T] E N. cbn [cVM cScoper] in *. rewrite neg_m in E. injection E as <- <-.
  destruct (negF_spec f vm I W T) as (N1 & N2 & N3 & N4 & N5 & _).
  split; [now apply evolves_vm|]. intros g [= <-]. split; auto.
Qed.

Lemma bounded_Conj : forall f g vm, bounded f vm -> bounded g vm -> bounded (Conjunction f g) vm.
Proof. intros f g vm [A B] [C D]. split; [now apply wf_Conjunction|]. pose proof (Conjunction_tv f g A C). lia. Qed.

(* ---- the guarded quantifier ---- *)

(* inside: like evolves, but the topmost scope may have another value *)
Record turns (base : list scope) (tgt : string) (c c' : ctx) : Prop := {
  tn_model : cModel c' = cModel c;
  tn_good : good_ctx c';
  tn_vm : vm_ext (cVM c) (cVM c');
  tn_scopes : exists g, scopes (cScoper c') = base ++ [g] /\ sTarget g = tgt;
  tn_vars : exists l, svars (cScoper c') = l ++ svars (cScoper c) /\ Forall (fun kv => snd kv = S (length base)) l
}.

Lemma turns_refl : forall base tgt c, good_ctx c -> (exists g, scopes (cScoper c) = base ++ [g] /\ sTarget g = tgt) -> turns base tgt c c.
Proof. intros. split; auto; [apply vm_ext_refl|]. exists []. auto. Qed.
Lemma turns_trans : forall base tgt a b c, turns base tgt a b -> turns base tgt b c -> turns base tgt a c.
Proof.
  intros base tgt a b c [A1 A2 A3 A4 (l1 & A5 & A6)] [B1 B2 B3 B4 (l2 & B5 & B6)]. split; auto; try congruence.
  - eapply vm_ext_trans; eauto.
  - exists (l2 ++ l1). split; [rewrite B5, A5; apply app_assoc|]. now apply Forall_app.
Qed.
Lemma evolves_turns : forall base tgt c c', evolves c c' -> (exists g, scopes (cScoper c) = base ++ [g] /\ sTarget g = tgt) -> turns base tgt c c'.
Proof.
  intros base tgt c c' [E1 E2 E3 E4 (l & E5 & E6)] (g & H1 & H2). split; auto.
  - exists g. split; [congruence|auto].
  - exists l. split; auto. eapply Forall_impl; [|exact E6]. intros kv (_ & H & _). rewrite H, H1, app_length. simpl. lia.
Qed.
Lemma turns_set : forall base tgt c i e c', good_ctx c -> (exists g, scopes (cScoper c) = base ++ [g] /\ sTarget g = tgt) ->
  m_SetScope i e c = (Ok tt, c') -> turns base tgt c c' /\ cVM c' = cVM c.
Proof.
  intros base tgt [s vm m] i e c' [I J] (g & H1 & H2) E. cbn [cScoper cVM] in *. unfold m_SetScope in E. cbn [cScoper] in E.
  destruct (set_scope_last s base g i e H1) as [S1 S2]. unfold set_scope in *. pose proof (sc_inv_SetScope s i e J) as J'.
  destruct (SetScope s i e) as [er s1] eqn:ES. cbn [snd] in *. assert (c' = mkCtx s1 vm m) as -> by (unfold set_scoper in E; cbn [cVM cModel] in E; congruence).
  split; auto. split; cbn [cScoper cVM cModel]; auto.
  - split; auto.
  - apply vm_ext_refl.
  - exists (mkScope (sTarget g) e i). auto.
  - exists []. auto.
Qed.
Lemma SetScope_ok : forall s i e, scopes s <> [] -> fst (SetScope s i e) = None.
Proof. intros s i e H. unfold SetScope. destruct (scopes s); [congruence|reflexivity]. Qed.

Lemma loop_turns : forall body base tgt, safe anything bounded body ->
  forall fuel it i acc c r c', good_ctx c -> (exists g, scopes (cScoper c) = base ++ [g] /\ sTarget g = tgt) -> bounded acc (cVM c) ->
  forall_loop fuel body it i acc c = (r, c') -> r <> Hang ->
  turns base tgt c c' /\ forall f, r = Ok f -> bounded f (cVM c').
Proof.
  intros body base tgt Hb fuel. induction fuel as [|fuel IH]; intros it i acc c r c' G S B E N.
  - injection E as <- <-. congruence.
  - cbn [forall_loop] in E. unfold bind at 1, lift in E. destruct (Next it) as [[more it1]|e| |].
    2-4: injection E as <- <-; split; [now apply turns_refl|discriminate].
    destruct more.
    + assert (SS : exists c1, m_SetScope i (it_t it1) c = (Ok tt, c1)).
      { unfold m_SetScope. pose proof (SetScope_ok (cScoper c) i (it_t it1)) as H. destruct (SetScope _ _ _) as [er s1]. cbn [fst] in H.
        rewrite H; [eauto|]. destruct S as (g & S & _). rewrite S. destruct base; discriminate. }
      destruct SS as (c1 & SS). destruct (turns_set base tgt c i (it_t it1) c1 G S SS) as [T1 V1].
      rewrite (bind_ok _ _ _ _ _ _ _ SS) in E. unfold bind at 1 in E. destruct (body c1) as [r2 c2] eqn:E2.
      assert (N2 : r2 <> Hang) by (intros ->; injection E as <- <-; congruence).
      destruct (Hb c1 r2 c2 (tn_good _ _ _ _ T1) Logic.I E2 N2) as [V2 B2].
      pose proof (evolves_turns base tgt c1 c2 V2 (tn_scopes _ _ _ _ T1)) as T2.
      pose proof (turns_trans _ _ _ _ _ T1 T2) as T12.
      destruct r2 as [f2|e| |].
      * destruct (IH it1 (i + 1) (Conjunction acc f2) c2 r c') as [T3 B3]; auto.
        -- apply T12.
        -- apply (tn_scopes _ _ _ _ T12).
        -- apply bounded_Conj; auto. eapply bounded_ext; [apply T12|]. exact B.
        -- split; auto. eapply turns_trans; eauto.
      * injection E as <- <-. split; [auto|discriminate].
      * injection E as <- <-. split; [auto|discriminate].
      * congruence.
    + injection E as <- <-. split; [now apply turns_refl|]. intros f [= <-]. exact B.
Qed.

Lemma filter_all : forall A (f : A -> bool) l, Forall (fun a => f a = true) l -> filter f l = l.
Proof. induction 1 as [|a l H Hl IH]; simpl; auto. now rewrite H, IH. Qed.
Lemma filter_none : forall A (f : A -> bool) l, Forall (fun a => f a = false) l -> filter f l = [].
Proof. induction 1 as [|a l H Hl IH]; simpl; auto. now rewrite H, IH. Qed.

Lemma AddScope_good : forall c tgt, good_ctx c -> good_ctx (set_scoper c (AddScope (cScoper c) tgt)).
Proof. intros c tgt [I J]. split; cbn [set_scoper cVM cScoper]; auto. now apply sc_inv_AddScope. Qed.

(* leaving the quantifier *)
Lemma pop_turns : forall c tgt c', good_ctx c ->
  turns (scopes (cScoper c)) tgt (set_scoper c (AddScope (cScoper c) tgt)) c' ->
  fst (PopScope (cScoper c')) = None /\ evolves c (set_scoper c' (snd (PopScope (cScoper c')))) /\
  cScoper (set_scoper c' (snd (PopScope (cScoper c')))) = cScoper c.
Proof.
  intros [s vm m] tgt [s' vm' m'] [I J] [T1 [T2 T2'] T3 (g & T4 & _) (l & T5 & T6)]. cbn [set_scoper cVM cScoper cModel AddScope scopes svars] in *.
  destruct (pop_last s' (scopes s) g T4) as [P1 P2].
  assert (F : svars (snd (PopScope s')) = svars s).
  { rewrite P2, T5, filter_app. rewrite filter_none, filter_all; auto.
    - eapply Forall_impl; [|exact J]. intros kv H. cbn beta in *. apply negb_true_iff, Nat.eqb_neq. lia.
    - eapply Forall_impl; [|exact T6]. intros kv H. cbn beta in *. apply negb_false_iff, Nat.eqb_eq. auto. }
  assert (EQ : snd (PopScope s') = s).
  { destruct (snd (PopScope s')) as [a b], s as [a0 b0]. cbn [scopes svars] in *. congruence. }
  split; [unfold PopScope; destruct (scopes s') eqn:E; [destruct (scopes s); discriminate|reflexivity]|].
  rewrite EQ. split; auto. split; cbn [cVM cScoper cModel]; auto.
  - split; auto.
  - apply new_vars_refl.
Qed.

Lemma safe_all : forall body id fuelf, safe anything bounded body ->
  forall c r c', good_ctx c ->
  bind (m_AddScope id) (fun _ => defer_PopScope (fun cx =>
     bind (lift (newNodeAsValuesIter (Dim (cModel cx)) (Nodes (cModel cx))))
       (fun it => forall_loop (fuelf (Nodes (cModel cx))) body it 0 TrueCNF) cx)) c = (r, c') ->
  r <> Hang -> (evolves c c' /\ cScoper c' = cScoper c) /\ forall f, r = Ok f -> bounded f (cVM c').
Proof.
  intros body id fuelf Hb c r c' G E N. unfold bind at 1, m_AddScope in E.
  set (c1 := set_scoper c (AddScope (cScoper c) id)) in *. unfold defer_PopScope in E.
  assert (G1 : good_ctx c1) by now apply AddScope_good.
  assert (S1 : exists g, scopes (cScoper c1) = scopes (cScoper c) ++ [g] /\ sTarget g = id).
  { exists (mkScope id [] 0). auto. }
  assert (B1 : bounded TrueCNF (cVM c1)) by (split; [apply wf_True|apply G1]).
  match type of E with (let (_, _) := ?x in _) = _ => destruct x as [r1 c2] eqn:E1 end.
  assert (N1 : r1 <> Hang) by (intros ->; injection E as <- <-; congruence).
  assert (T : turns (scopes (cScoper c)) id c1 c2 /\ forall f, r1 = Ok f -> bounded f (cVM c2)).
  { unfold bind, lift in E1. destruct (newNodeAsValuesIter _ _) as [it|e| |].
    - eapply (loop_turns body _ id Hb); eauto.
    - injection E1 as <- <-. split; [now apply turns_refl|discriminate].
    - injection E1 as <- <-. split; [now apply turns_refl|discriminate].
    - injection E1 as <- <-. congruence. }
  destruct T as [T B2]. destruct (pop_turns c id c2 G T) as (P1 & P2 & P3).
  destruct (PopScope (cScoper c2)) as [pe s2] eqn:EP. cbn [fst snd] in *. subst pe.
  assert (X : (r, c') = (r1, set_scoper c2 s2)) by (destruct r1; congruence). injection X as -> ->.
  split; auto.
Qed.

(* ---- every query ---- *)

Theorem safe_enc : forall q, safe anything bounded (enc q).
Proof.
  induction q as [|a|q IH|q1 IH1 q2 IH2|q1 IH1 q2 IH2|v q IH|c q IH]; cbn [enc].
  - intros c r c' G _ E N. injection E as <- <-. split; [now apply evolves_refl|discriminate].
  - apply safe_enc_atom.
  - apply safe_wrap. destruct (is_nil q); [apply safe_fail|]. eapply safe_bind; [apply IH|]. intros f. apply safe_Negate.
  - apply safe_wrap. destruct (is_nil q1); [apply safe_fail|]. destruct (is_nil q2); [apply safe_fail|].
    eapply safe_bind; [apply safe_wrap, IH1|]. intros f1.
    eapply safe_bind.
    { eapply safe_weaken; [apply (safe_frame _ (wrap "Q2" (enc q2)) anything bounded (bounded f1)); [intros; eapply bounded_ext; eauto|apply safe_wrap, IH2]| |].
      - intros vm H. split; [exact Logic.I|exact H].
      - intros f2 vm H. exact H. }
    intros f2. cbn beta. apply safe_ret. intros vm [H1 H2]. now apply bounded_Conj.
  - apply safe_wrap. destruct (is_nil q1); [apply safe_fail|]. destruct (is_nil q2); [apply safe_fail|].
    eapply safe_bind; [apply safe_wrap, IH1|]. intros f1.
    eapply safe_bind.
    { eapply safe_weaken; [apply (safe_frame _ (wrap "Q2" (enc q2)) anything bounded (bounded f1)); [intros; eapply bounded_ext; eauto|apply safe_wrap, IH2]| |].
      - intros vm H. split; [exact Logic.I|exact H].
      - intros f2 vm H. exact H. }
    intros f2. cbn beta.
    eapply safe_bind.
    { eapply safe_weaken; [apply (safe_frame _ (m_Negate f1) (bounded f1) bounded (bounded f2)); [intros; eapply bounded_ext; eauto|apply safe_Negate]| |].
      - intros vm [H1 H2]. split; assumption.
      - intros g vm H. exact H. }
    intros g1. cbn beta.
    eapply safe_bind.
    { eapply safe_weaken; [apply (safe_frame _ (m_Negate f2) (bounded f2) bounded (bounded g1)); [intros; eapply bounded_ext; eauto|apply safe_Negate]| |].
      - intros vm [H1 H2]. split; assumption.
      - intros g vm H. exact H. }
    intros g2. cbn beta. eapply safe_weaken; [apply safe_Negate| |].
    + intros vm [H1 H2]. now apply bounded_Conj.
    + auto.
  - apply safe_wrap. destruct (is_nil q); [apply safe_fail|].
    eapply safe_bind; [apply safe_AddVar|]. intros u.
    eapply safe_bind; [eapply safe_weaken; [apply safe_encodeI|intros; exact Logic.I|intros f vm H; exact H]|]. intros f1.
    eapply safe_bind.
    { eapply safe_weaken; [apply (safe_frame _ (enc q) anything bounded (bounded f1)); [intros; eapply bounded_ext; eauto|apply IH]| |].
      - intros vm H. split; [exact Logic.I|exact H].
      - intros f2 vm H. exact H. }
    intros f2. cbn beta. apply safe_ret. intros vm [H1 H2]. now apply bounded_Conj.
  - apply safe_wrap. destruct (is_nil q); [apply safe_fail|].
    intros cx r c' G _ E N. destruct (safe_all (enc q) (cID c) forall_fuel IH cx r c' G E N) as [[V _] B]. auto.
Qed.
