(* Histories of calls on the context (query/context.go, varmanager.go,
   scoper.go) and what they return. *)
From Verif Require Import GoBase GoLemmas Query QueryLemmas.
Local Open Scope string_scope.
Local Open Scope Z_scope.
Local Open Scope list_scope.

(* ---- specification: calls and observations ---- *)

Inductive vmcall := KVar (t : varRep) | KTop (k : Z) | KExists (t : varRep).
Inductive sccall :=
| KScopeVar (v : string) | KScopeConst (c : QConst) | KAddVar (v : string)
| KAddScope (t : string) | KPopScope | KSetScope (i : Z) (val : list FeatV).
Inductive call := KV (k : vmcall) | KS (k : sccall) | KReset.

Inductive obs :=
| OInt (n : Z) | OBool (b : bool) | OName (r : res string)
| OConst (r : QConst * bool) | OErr (e : option string) | ONone.

Definition run_vm (vm : varman) (k : vmcall) : obs * varman :=
  match k with
  | KVar t => let '(n, vm') := CNFVar vm t in (OInt n, vm')
  | KTop k => let '(b, vm') := UpdateTopV vm k in (OBool b, vm')
  | KExists t => (OBool (CNFVarExists vm t), vm)
  end.

Definition run_sc (s : scoper) (k : sccall) : obs * scoper :=
  match k with
  | KScopeVar v => (OName (ScopeVar s v), s)
  | KScopeConst c => (OConst (ScopeConst s c), s)
  | KAddVar v => (ONone, AddVar s v)
  | KAddScope t => (ONone, AddScope s t)
  | KPopScope => let '(e, s') := PopScope s in (OErr e, s')
  | KSetScope i val => let '(e, s') := SetScope s i val in (OErr e, s')
  end.

Definition run_call (c : ctx) (k : call) : obs * ctx :=
  match k with
  | KV k => let '(o, vm) := run_vm (cVM c) k in (o, mkCtx (cScoper c) vm (cModel c))
  | KS k => let '(o, s) := run_sc (cScoper c) k in (o, mkCtx s (cVM c) (cModel c))
  | KReset => (ONone, CtxReset c)
  end.

Fixpoint run_calls (c : ctx) (h : list call) : list obs * ctx :=
  match h with
  | [] => ([], c)
  | k :: r => let '(o, c1) := run_call c k in
              let '(os, c2) := run_calls c1 r in (o :: os, c2)
  end.
Definition observe (c : ctx) (h : list call) : list obs := fst (run_calls c h).
Definition after (c : ctx) (h : list call) : ctx := snd (run_calls c h).

Definition vm_after (vm : varman) (h : list vmcall) : varman :=
  fold_left (fun vm k => snd (run_vm vm k)) h vm.
Definition sc_after (s : scoper) (h : list sccall) : scoper :=
  fold_left (fun s k => snd (run_sc s k)) h s.

(* Every Reset of the history finds an empty scope stack. *)
Fixpoint resets_unscoped (c : ctx) (h : list call) : Prop :=
  match h with
  | [] => True
  | k :: r => (k = KReset -> scopes (cScoper c) = []) /\
              resets_unscoped (snd (run_call c k)) r
  end.

(* Balanced use of the scope stack: every AddScope is matched by a PopScope;
   anything but popping the surrounding scope is allowed in between. *)
Inductive balanced : list sccall -> Prop :=
| bal_nil : balanced []
| bal_scopevar v h : balanced h -> balanced (KScopeVar v :: h)
| bal_scopeconst c h : balanced h -> balanced (KScopeConst c :: h)
| bal_addvar v h : balanced h -> balanced (KAddVar v :: h)
| bal_set i x h : balanced h -> balanced (KSetScope i x :: h)
| bal_nest t h1 h2 : balanced h1 -> balanced h2 ->
    balanced (KAddScope t :: h1 ++ KPopScope :: h2).

(* ---- proofs ---- *)

Lemma run_vm_spec : forall vm k, vm_inv vm ->
  vm_inv (snd (run_vm vm k)) /\ vm_ext vm (snd (run_vm vm k)).
Proof.
  intros vm [t|k|t] H; simpl.
  - destruct (CNFVar vm t) as [n vm'] eqn:E. destruct (CNFVar_spec _ _ _ _ H E) as (A & B & _). auto.
  - destruct (UpdateTopV vm k) as [b vm'] eqn:E. destruct (UpdateTopV_spec _ _ _ _ H E) as (A & B & _). auto.
  - auto using vm_ext_refl.
Qed.

Lemma vm_after_spec : forall h vm, vm_inv vm -> vm_inv (vm_after vm h) /\ vm_ext vm (vm_after vm h).
Proof.
  induction h as [|k h IH]; intros vm H; simpl.
  - auto using vm_ext_refl.
  - destruct (run_vm_spec vm k H) as [A B]. destruct (IH _ A) as [C D].
    split; auto. eapply vm_ext_trans; eauto.
Qed.

Lemma vm_after_app : forall h1 h2 vm, vm_after vm (h1 ++ h2) = vm_after (vm_after vm h1) h2.
Proof. intros. unfold vm_after. apply fold_left_app. Qed.

Definition fresh_vm := mkVarman 0 [].

Lemma number_stable : forall h1 h2 t n vm,
  CNFVar (vm_after fresh_vm h1) t = (n, vm) ->
  fst (CNFVar (vm_after vm h2) t) = n /\ 1 <= n <= vm_topv vm.
Proof.
  intros h1 h2 t n vm E.
  destruct (vm_after_spec h1 fresh_vm vm_inv_init) as [I _].
  destruct (CNFVar_spec _ _ _ _ I E) as (J & _ & L & _).
  destruct (vm_after_spec h2 vm J) as [_ (_ & X & _)].
  split.
  - unfold CNFVar. rewrite (X _ _ L). reflexivity.
  - apply J in L. lia.
Qed.

Lemma number_injective : forall h1 h2 t t' n n' vm vm',
  CNFVar (vm_after fresh_vm h1) t = (n, vm) ->
  CNFVar (vm_after vm h2) t' = (n', vm') ->
  n = n' -> t = t'.
Proof.
  intros h1 h2 t t' n n' vm vm' E E' ->.
  destruct (vm_after_spec h1 fresh_vm vm_inv_init) as [I _].
  destruct (CNFVar_spec _ _ _ _ I E) as (J & _ & L & _).
  destruct (vm_after_spec h2 vm J) as [J' (_ & X & _)].
  destruct (CNFVar_spec _ _ _ _ J' E') as ((_ & _ & Inj) & (_ & X' & _) & L' & _).
  eapply Inj; [|exact L']. auto.
Qed.

Lemma number_fresh : forall h1 k vm h2 t n vm',
  UpdateTopV (vm_after fresh_vm h1) k = (true, vm) ->
  CNFVarExists (vm_after fresh_vm h1) t = false ->
  CNFVar (vm_after vm h2) t = (n, vm') -> k < n.
Proof.
  intros h1 k vm h2 t n vm' E X C.
  destruct (vm_after_spec h1 fresh_vm vm_inv_init) as [I _].
  destruct (UpdateTopV_spec _ _ _ _ I E) as (J & _ & V & K & _).
  destruct (vm_after_spec h2 vm J) as [J' Y].
  destruct (CNFVar_spec _ _ _ _ J' C) as (_ & Y' & L & _).
  pose proof (vm_ext_trans _ _ _ Y Y') as (_ & _ & Z).
  rewrite <- (K eq_refl). eapply Z; [exact L|]. rewrite V.
  unfold CNFVarExists in X. destruct (vlookup _ t); auto; discriminate.
Qed.

Lemma exists_after_var : forall h1 t n vm h2,
  CNFVar (vm_after fresh_vm h1) t = (n, vm) -> CNFVarExists (vm_after vm h2) t = true.
Proof.
  intros h1 t n vm h2 E.
  destruct (vm_after_spec h1 fresh_vm vm_inv_init) as [I _].
  destruct (CNFVar_spec _ _ _ _ I E) as (J & _ & L & _).
  destruct (vm_after_spec h2 vm J) as [_ (_ & X & _)].
  unfold CNFVarExists. now rewrite (X _ _ L).
Qed.

(* scoper *)

Lemma run_sc_inv : forall s k, sc_inv s -> sc_inv (snd (run_sc s k)).
Proof.
  intros s [v|c|v|t| |i x] H; simpl; auto using sc_inv_AddVar, sc_inv_AddScope.
  - pose proof (sc_inv_PopScope s H). destruct (PopScope s); auto.
  - pose proof (sc_inv_SetScope s i x H). destruct (SetScope s i x); auto.
Qed.
Lemma sc_after_inv : forall h s, sc_inv s -> sc_inv (sc_after s h).
Proof. induction h; simpl; auto using run_sc_inv. Qed.
Lemma sc_after_app : forall h1 h2 s, sc_after s (h1 ++ h2) = sc_after (sc_after s h1) h2.
Proof. intros. unfold sc_after. apply fold_left_app. Qed.

Lemma run_call_inv : forall c k, sc_inv (cScoper c) ->
  (k = KReset -> scopes (cScoper c) = []) -> sc_inv (cScoper (snd (run_call c k))).
Proof.
  intros c [k|k|] H Hr; simpl.
  - destruct (run_vm (cVM c) k); auto.
  - pose proof (run_sc_inv _ k H). destruct (run_sc (cScoper c) k); auto.
  - rewrite (sc_inv_Reset_empty _ H (Hr eq_refl)). apply sc_inv_init.
Qed.
Lemma after_cons : forall c k h, after c (k :: h) = after (snd (run_call c k)) h.
Proof.
  intros. unfold after. simpl. destruct (run_call c k) as [o c1]. simpl.
  destruct (run_calls c1 h). reflexivity.
Qed.
Lemma after_inv : forall h c, sc_inv (cScoper c) -> resets_unscoped c h -> sc_inv (cScoper (after c h)).
Proof.
  induction h as [|k h IH]; intros c H Hr.
  - exact H.
  - rewrite after_cons. destruct Hr as [Hk Hr]. apply IH; auto. now apply run_call_inv.
Qed.
Lemma run_call_model : forall c k, cModel (snd (run_call c k)) = cModel c.
Proof.
  intros c [k|k|]; simpl; auto.
  - destruct (run_vm (cVM c) k); auto.
  - destruct (run_sc (cScoper c) k); auto.
Qed.
Lemma after_model : forall h c, cModel (after c h) = cModel c.
Proof.
  induction h as [|k h IH]; intros c; auto.
  rewrite after_cons, IH. apply run_call_model.
Qed.

Lemma reset_fresh : forall m h,
  resets_unscoped (BasicQContext m) (h ++ [KReset]) ->
  after (BasicQContext m) (h ++ [KReset]) = BasicQContext m.
Proof.
  intros m h.
  assert (G : forall h c, sc_inv (cScoper c) -> cModel c = m -> resets_unscoped c (h ++ [KReset]) ->
              after c (h ++ [KReset]) = BasicQContext m).
  { clear h. induction h as [|k h IH]; intros c Hi Hm [Hk Hr].
    - simpl app. rewrite after_cons. unfold after. cbn [run_calls run_call snd]. unfold CtxReset, BasicQContext, ScoperReset, VarmanReset.
      rewrite (sc_inv_Reset_empty _ Hi (Hk eq_refl)), Hm. reflexivity.
    - simpl app. rewrite after_cons. apply IH; auto.
      + now apply run_call_inv.
      + now rewrite run_call_model. }
  apply G; [apply sc_inv_init|reflexivity].
Qed.

(* Everything but ScopeVar is independent of leftover variable levels. *)
Definition is_scopevar (k : call) : bool := match k with KS (KScopeVar _) => true | _ => false end.
Definition sim (c d : ctx) : Prop :=
  scopes (cScoper c) = scopes (cScoper d) /\ cVM c = cVM d /\ cModel c = cModel d.

Lemma run_call_sim : forall c d k, sim c d ->
  sim (snd (run_call c k)) (snd (run_call d k)) /\
  (is_scopevar k = false -> fst (run_call c k) = fst (run_call d k)).
Proof.
  intros [[sc sv] vm m] [[sc' sv'] vm' m'] k (E1 & E2 & E3). simpl in *. subst.
  destruct k as [k|k|]; simpl.
  - destruct (run_vm vm' k); simpl. repeat split; auto.
  - destruct k as [v|c|v|t| |i x]; simpl; try (repeat split; auto; fail).
    + repeat split; auto; discriminate.
    + unfold AddVar; simpl. destruct (length sc' =? 0)%nat; [repeat split; auto|].
      destruct (slookup sv v), (slookup sv' v); repeat split; auto.
    + unfold PopScope; simpl. destruct sc'; repeat split; auto.
    + unfold SetScope; simpl. destruct sc'; repeat split; auto.
  - repeat split; auto.
Qed.

Lemma observe_cons : forall c k h, observe c (k :: h) = fst (run_call c k) :: observe (snd (run_call c k)) h.
Proof.
  intros. unfold observe. simpl. destruct (run_call c k) as [o c1]. simpl.
  destruct (run_calls c1 h). reflexivity.
Qed.

Lemma observe_sim : forall h c d, sim c d ->
  Forall2 (fun k oo => is_scopevar k = false -> fst oo = snd oo) h (combine (observe c h) (observe d h)).
Proof.
  induction h as [|k h IH]; intros c d H.
  - constructor.
  - rewrite !observe_cons. simpl. destruct (run_call_sim c d k H). constructor; auto.
Qed.

(* Balanced histories *)

Definition lower (n : nat) (sv : list (string * nat)) : list (string * nat) :=
  filter (fun kv => negb (snd kv =? n)%nat) sv.

Lemma lower_id : forall n sv, Forall (fun kv => (snd kv < n)%nat) sv -> lower n sv = sv.
Proof.
  induction 1 as [|[k m] l H Hl IH]; simpl; auto. simpl in H.
  destruct (Nat.eqb_spec m n); [lia|]. simpl. now rewrite IH.
Qed.

Lemma removelast_snoc : forall A (l : list A) a, removelast (l ++ [a]) = l.
Proof. intros. apply removelast_last. Qed.

(* With at least one scope on the stack, a balanced history only changes the
   top scope's value/index and adds variables of the top level. *)
Lemma balanced_effect : forall h, balanced h -> forall base top sv0 sv,
  Forall (fun kv => (1 <= snd kv <= length base)%nat) sv0 ->
  lower (S (length base)) sv = sv0 ->
  Forall (fun kv => (1 <= snd kv <= S (length base))%nat) sv ->
  exists top' sv', sc_after (mkScoper (base ++ [top]) sv) h = mkScoper (base ++ [top']) sv' /\
    sTarget top' = sTarget top /\
    lower (S (length base)) sv' = sv0 /\
    Forall (fun kv => (1 <= snd kv <= S (length base))%nat) sv'.
Proof.
  induction 1 as [|v h Hh IH|c h Hh IH|v h Hh IH|i x h Hh IH|t h1 h2 H1 IH1 H2 IH2];
    intros base top sv0 sv L0 LS LA.
  - exists top, sv. auto.
  - simpl. eauto.
  - simpl. eauto.
  - simpl. unfold AddVar. cbn [scopes svars]. rewrite app_length. simpl length.
    destruct (Nat.eqb_spec (length base + 1) 0); [lia|].
    destruct (slookup sv v) eqn:El; [eauto|].
    apply IH; auto.
    + simpl. destruct (Nat.eqb_spec (length base + 1) (S (length base))); [simpl; auto|lia].
    + constructor; auto. simpl; lia.
  - cbn [sc_after fold_left run_sc].
    change (exists top' sv', sc_after (snd (let '(e, s') := SetScope (mkScoper (base ++ [top]) sv) i x in (OErr e, s'))) h = mkScoper (base ++ [top']) sv' /\
    sTarget top' = sTarget top /\
    lower (S (length base)) sv' = sv0 /\
    Forall (fun kv => (1 <= snd kv <= S (length base))%nat) sv').
    unfold SetScope. cbn [scopes svars].
    destruct (base ++ [top]) as [|g l] eqn:E; [destruct base; discriminate|]. rewrite <- E.
    cbn [snd]. rewrite removelast_snoc, last_last.
    destruct (IH base (mkScope (sTarget top) x i) sv0 sv L0 LS LA) as (top' & sv' & A & B & C & D).
    exists top', sv'. auto.
  - change (sc_after (mkScoper (base ++ [top]) sv) (KAddScope t :: h1 ++ KPopScope :: h2))
      with (sc_after (AddScope (mkScoper (base ++ [top]) sv) t) (h1 ++ KPopScope :: h2)).
    rewrite sc_after_app. unfold AddScope. cbn [scopes svars].
    assert (LB : length (base ++ [top]) = S (length base)) by (rewrite app_length; simpl; lia).
    destruct (IH1 (base ++ [top]) (mkScope t [] 0) sv sv) as (top1 & sv1 & A & _ & C & _).
    + rewrite LB. auto.
    + apply lower_id. rewrite LB. eapply Forall_impl; [|exact LA]. simpl; intros; lia.
    + rewrite LB. eapply Forall_impl; [|exact LA]. simpl; intros; lia.
    + rewrite A. cbn [sc_after fold_left run_sc].
      change (exists top' sv', sc_after (snd (let '(e, s') := PopScope (mkScoper ((base ++ [top]) ++ [top1]) sv1) in (OErr e, s'))) h2 = mkScoper (base ++ [top']) sv' /\
    sTarget top' = sTarget top /\
    lower (S (length base)) sv' = sv0 /\
    Forall (fun kv => (1 <= snd kv <= S (length base))%nat) sv').
      unfold PopScope. cbn [scopes svars].
      destruct ((base ++ [top]) ++ [top1]) as [|g l] eqn:E; [destruct base; discriminate|]. rewrite <- E.
      cbn [snd]. rewrite removelast_snoc.
      replace (length ((base ++ [top]) ++ [top1])) with (S (length (base ++ [top])))
        by (rewrite (app_length (base ++ [top])); simpl; lia).
      fold (lower (S (length (base ++ [top]))) sv1). rewrite C. apply IH2; auto.
Qed.

Lemma sc_split : forall s, sc_inv s -> forall t h, balanced h ->
  sc_after s (KAddScope t :: h ++ [KPopScope]) = s /\
  fst (PopScope (sc_after s (KAddScope t :: h))) = None.
Proof.
  intros [sc sv] Hi t h Hb. unfold sc_inv in Hi. simpl in Hi.
  destruct (balanced_effect h Hb sc (mkScope t [] 0) sv sv) as (top' & sv' & A & B & C & D).
  - exact Hi.
  - apply lower_id. eapply Forall_impl; [|exact Hi]. simpl; intros; lia.
  - eapply Forall_impl; [|exact Hi]. simpl; intros; lia.
  - change (sc_after (mkScoper sc sv) (KAddScope t :: h ++ [KPopScope]))
      with (sc_after (mkScoper (sc ++ [mkScope t [] 0]) sv) (h ++ [KPopScope])).
    change (sc_after (mkScoper sc sv) (KAddScope t :: h))
      with (sc_after (mkScoper (sc ++ [mkScope t [] 0]) sv) h).
    rewrite sc_after_app, A. cbn [sc_after fold_left run_sc]. unfold PopScope. cbn [scopes svars].
    destruct (sc ++ [top']) as [|g l] eqn:E; [destruct sc; discriminate|]. rewrite <- E.
    cbn [snd fst]. split; auto. rewrite removelast_snoc.
    replace (length (sc ++ [top'])) with (S (length sc)) by (rewrite app_length; simpl; lia).
    fold (lower (S (length sc)) sv'). now rewrite C.
Qed.

(* Innermost binding of an ID: the specification of constant scoping. *)
Inductive innermost (id : string) : list scope -> scope -> Prop :=
| inn_here l g : sTarget g = id -> innermost id (l ++ [g]) g
| inn_outer l g g' : sTarget g' <> id -> innermost id l g -> innermost id (l ++ [g']) g.

Definition unbound (id : string) (l : list scope) : Prop := forall g, In g l -> sTarget g <> id.

Lemma find_scope_unbound : forall l id, unbound id l -> find_scope l id = None.
Proof.
  induction l as [|g l IH]; intros id H; simpl; auto.
  destruct (String.eqb_spec (sTarget g) id) as [E|E].
  - exfalso. apply (H g); simpl; auto.
  - apply IH. intros g' Hg. apply H; simpl; auto.
Qed.
Lemma find_scope_app : forall l l' id, find_scope (l ++ l') id =
  match find_scope l id with Some g => Some g | None => find_scope l' id end.
Proof. induction l as [|g l IH]; intros; simpl; auto. destruct (String.eqb (sTarget g) id); auto. Qed.

Lemma find_scope_none : forall l id, find_scope l id = None -> unbound id l.
Proof.
  induction l as [|g l IH]; intros id H g' Hg; simpl in *; [contradiction|].
  destruct (String.eqb_spec (sTarget g) id) as [E|E]; [discriminate|].
  destruct Hg as [<-|Hg]; auto. apply (IH id H g' Hg).
Qed.

Lemma find_scope_some : forall l id g, find_scope l id = Some g -> In g l /\ sTarget g = id.
Proof.
  induction l as [|g0 l IH]; intros id g H; simpl in *; [discriminate|].
  destruct (String.eqb_spec (sTarget g0) id) as [E|E].
  - injection H as <-. auto.
  - destruct (IH _ _ H); auto.
Qed.

Lemma innermost_In : forall id l g, innermost id l g -> In g l /\ sTarget g = id.
Proof.
  induction 1 as [l g E|l g g' N H IH].
  - split; auto. apply in_or_app; simpl; auto.
  - destruct IH. split; auto. apply in_or_app; auto.
Qed.

Lemma find_scope_innermost : forall id l g, NoDup (map sTarget l) -> innermost id l g ->
  find_scope l id = Some g.
Proof.
  intros id l g ND H. destruct (find_scope l id) as [g'|] eqn:E.
  - f_equal. apply find_scope_some in E as [I1 E1]. apply innermost_In in H as [I2 E2].
    clear -ND I1 I2 E1 E2. revert I1 I2. induction l as [|x l IH]; simpl; intros I1 I2; [contradiction|].
    apply NoDup_cons_iff in ND as [Hn Hd].
    destruct I1 as [->|I1], I2 as [->|I2]; auto.
    + exfalso. apply Hn. rewrite E1, <- E2. now apply in_map.
    + exfalso. apply Hn. rewrite E2, <- E1. now apply in_map.
  - exfalso. apply innermost_In in H as [I E']. apply find_scope_none in E. apply (E g); auto.
Qed.
