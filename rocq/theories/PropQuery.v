(* Properties C06-C10 and C40: package query. *)
From Verif Require Import GoBase GoLemmas Query QueryLemmas QueryHist.
Local Open Scope string_scope.
Local Open Scope Z_scope.
Local Open Scope list_scope.

(* ---- C06 ---- *)

(* t is asked for after history h1 and again after any further history h2. *)
Theorem C06_stable_and_positive : forall h1 h2 t n vm,
  CNFVar (vm_after (mkVarman 0 []) h1) t = (n, vm) ->
  fst (CNFVar (vm_after vm h2) t) = n /\
  1 <= n <= vm_topv vm /\
  CNFVarExists (vm_after vm h2) t = true.
Proof.
  intros. destruct (number_stable h1 h2 t n vm H). split; auto. split; auto.
  eapply exists_after_var; eauto.
Qed.
Print Assumptions C06_stable_and_positive.

Theorem C06_injective : forall h1 h2 t t' n n' vm vm',
  CNFVar (vm_after (mkVarman 0 []) h1) t = (n, vm) ->
  CNFVar (vm_after vm h2) t' = (n', vm') ->
  n = n' -> t = t'.
Proof. exact number_injective. Qed.
Print Assumptions C06_injective.

Theorem C06_update_reserves : forall h1 k vm h2 t n vm',
  UpdateTopV (vm_after (mkVarman 0 []) h1) k = (true, vm) ->
  CNFVarExists (vm_after (mkVarman 0 []) h1) t = false ->
  CNFVar (vm_after vm h2) t = (n, vm') -> k < n.
Proof. exact number_fresh. Qed.
Print Assumptions C06_update_reserves.

Theorem C06_topv_monotone : forall h1 h2,
  vm_topv (vm_after (mkVarman 0 []) h1) <= vm_topv (vm_after (mkVarman 0 []) (h1 ++ h2)).
Proof.
  intros. rewrite vm_after_app.
  apply (vm_after_spec h2 _ (proj1 (vm_after_spec h1 _ vm_inv_init))).
Qed.
Print Assumptions C06_topv_monotone.

Example C06_case :
  let h := [KVar ("x", 0, 0); KVar ("x", 0, 1); KTop 10; KTop 3] in
  let vm := vm_after (mkVarman 0 []) h in
  fst (CNFVar vm ("x", 0, 1)) = 2 /\ fst (CNFVar vm ("y", 0, 1)) = 11 /\
  fst (UpdateTopV vm 9) = false.
Proof. repeat split. Qed.

(* ---- C07 ---- *)

(* Between encodings the scope stack is empty (C32); then Reset gives back the
   initial context, whatever the history. *)
Theorem C07_reset_is_fresh : forall m h later,
  resets_unscoped (BasicQContext m) (h ++ [KReset]) ->
  observe (after (BasicQContext m) (h ++ [KReset])) later = observe (BasicQContext m) later.
Proof. intros. now rewrite reset_fresh. Qed.
Print Assumptions C07_reset_is_fresh.

(* In every context: right after Reset names are scoped to themselves, no
   constant is scoped, numbering restarts, no variable exists; and every later
   observation except ScopeVar is that of a fresh context. *)
Theorem C07_reset_any_context : forall c,
  (forall v, ScopeVar (cScoper (CtxReset c)) v = Ok v) /\
  (forall k, ScopeConst (cScoper (CtxReset c)) k = (k, false)) /\
  (forall t, CNFVarExists (cVM (CtxReset c)) t = false) /\
  (forall t, fst (CNFVar (cVM (CtxReset c)) t) = 1) /\
  (forall later, Forall2 (fun k oo => is_scopevar k = false -> fst oo = snd oo) later
     (combine (observe (CtxReset c) later) (observe (BasicQContext (cModel c)) later))).
Proof.
  intros c. repeat split. intros. apply observe_sim. repeat split.
Qed.
Print Assumptions C07_reset_any_context.

(* The unrestricted claim is false: Reset forgets the stack but keeps the
   levels of the variables declared in it, and a later ScopeVar panics. *)
Theorem C07_reset_refuted : exists m h later,
  observe (after (BasicQContext m) (h ++ [KReset])) later <> observe (BasicQContext m) later.
Proof.
  exists (mkModel 1 []),
    [KS (KAddScope "a"); KS (KAddScope "b"); KS (KAddVar "v")],
    [KS (KAddScope "c"); KS (KScopeVar "v")].
  vm_compute. discriminate.
Qed.
Print Assumptions C07_reset_refuted.

Example C07_case :
  let h := [KV (KVar ("x", 0, 0)); KS (KAddScope "a"); KS (KAddVar "v"); KS KPopScope] in
  resets_unscoped (BasicQContext (mkModel 1 [])) (h ++ [KReset]).
Proof. simpl. repeat split; discriminate || auto. Qed.

(* ---- C08 ---- *)

(* The part of the stack that matters for v: targets and indices of the scopes
   up to the level at which v was declared. *)
Definition scope_path (s : scoper) (v : string) : list (string * Z) :=
  if (length (scopes s) =? 0)%nat then []
  else map (fun g => (sTarget g, sIdx g))
         (firstn (match slookup (svars s) v with Some n => n | None => 0%nat end) (scopes s)).

Definition clean (s : string) : Prop := no_char us s = true.

Theorem C08_scoped_names_injective : forall s1 s2 v1 v2 n,
  clean v1 -> clean v2 ->
  Forall (fun g => clean (sTarget g)) (scopes s1) ->
  Forall (fun g => clean (sTarget g)) (scopes s2) ->
  ScopeVar s1 v1 = Ok n -> ScopeVar s2 v2 = Ok n ->
  v1 = v2 /\ scope_path s1 v1 = scope_path s2 v2.
Proof.
  assert (G : forall s v n, ScopeVar s v = Ok n -> exists l, n = scoped_name v l /\
            scope_path s v = map sc_key l /\ incl l (scopes s)).
  { intros s v n H. unfold scope_path. apply ScopeVar_cases in H as [[E ->]|[L ->]].
    - exists []. rewrite E. simpl. repeat split. intros x [].
    - exists (firstn (lvl_of s v) (scopes s)). split; auto. split.
      + destruct (Nat.eqb_spec (length (scopes s)) 0) as [E|E]; [|reflexivity].
        destruct (scopes s); [|discriminate]. now rewrite firstn_nil.
      + intros x Hx. rewrite <- (firstn_skipn (lvl_of s v) (scopes s)). apply in_or_app; auto. }
  intros s1 s2 v1 v2 n C1 C2 F1 F2 H1 H2.
  apply G in H1 as (l1 & -> & P1 & I1). apply G in H2 as (l2 & E & P2 & I2).
  rewrite P1, P2. apply scoped_name_inj; auto.
  - rewrite Forall_forall in *. intros g Hg. apply F1, I1, Hg.
  - rewrite Forall_forall in *. intros g Hg. apply F2, I2, Hg.
Qed.
Print Assumptions C08_scoped_names_injective.

Theorem C08_scoped_names_functional : forall s1 s2 v n,
  ScopeVar s1 v = Ok n -> scope_path s1 v = scope_path s2 v ->
  forall n2, ScopeVar s2 v = Ok n2 -> n2 = n.
Proof.
  assert (G : forall s v n, ScopeVar s v = Ok n -> exists l, n = scoped_name v l /\
            scope_path s v = map sc_key l).
  { intros s v n H. unfold scope_path. apply ScopeVar_cases in H as [[E ->]|[L ->]].
    - exists []. rewrite E. simpl. repeat split.
    - exists (firstn (lvl_of s v) (scopes s)). split; auto.
      destruct (Nat.eqb_spec (length (scopes s)) 0) as [E|E]; [|reflexivity].
      destruct (scopes s); [|discriminate]. now rewrite firstn_nil. }
  intros s1 s2 v n H1 E n2 H2.
  apply G in H1 as (l1 & -> & P1). apply G in H2 as (l2 & -> & P2).
  apply scoped_name_key. congruence.
Qed.
Print Assumptions C08_scoped_names_functional.

(* Two variables that would be confused without the separators. *)
Example C08_case :
  let s := sc_after (mkScoper [] [])
             [KAddScope "c"; KSetScope 1 []; KAddVar "x"; KAddScope "c1"; KSetScope 0 []; KAddVar "xc"] in
  ScopeVar s "x" = Ok ("x" ++ String us "c" ++ String us "1")%string /\
  ScopeVar s "xc" = Ok ("xc" ++ String us "c" ++ String us "1" ++ String us "c1" ++ String us "0")%string /\
  scope_path s "xc" = [("c", 1); ("c1", 0)].
Proof. repeat split. Qed.

(* ---- C09 ---- *)

(* From any reachable scoper, AddScope; balanced calls; PopScope is the
   identity on the whole state, and the PopScope succeeds. *)
Theorem C09_pop_restores : forall h0 t h,
  balanced h ->
  let s := sc_after (mkScoper [] []) h0 in
  sc_after s (KAddScope t :: h ++ [KPopScope]) = s /\
  fst (PopScope (sc_after s (KAddScope t :: h))) = None.
Proof. intros. apply sc_split; auto. apply sc_after_inv, sc_inv_init. Qed.
Print Assumptions C09_pop_restores.

Theorem C09_empty_stack_errors : forall s, scopes s = [] ->
  (exists e, PopScope s = (Some e, s)) /\
  (forall i x, exists e, SetScope s i x = (Some e, s)).
Proof.
  intros s E. unfold PopScope, SetScope. rewrite E. split; eauto.
Qed.
Print Assumptions C09_empty_stack_errors.

(* Reachable scopers never make ScopeVar panic. *)
Theorem C09_scopevar_total : forall h v, exists n,
  ScopeVar (sc_after (mkScoper [] []) h) v = Ok n.
Proof. intros. rewrite ScopeVar_ok; eauto. apply sc_after_inv, sc_inv_init. Qed.
Print Assumptions C09_scopevar_total.

Example C09_case :
  balanced [KAddVar "x"; KSetScope 3 [ONE]; KAddScope "d"; KAddVar "y"; KScopeVar "x"; KPopScope; KAddVar "y"].
Proof.
  repeat constructor.
  apply (bal_nest "d" [KAddVar "y"; KScopeVar "x"] [KAddVar "y"]); repeat constructor.
Qed.

(* ---- C10 ---- *)

Theorem C10_unbound_keeps_value : forall s c,
  unbound (cID c) (scopes s) -> ScopeConst s c = (c, false).
Proof. intros s c H. unfold ScopeConst. now rewrite find_scope_unbound. Qed.
Print Assumptions C10_unbound_keeps_value.

(* Holds when no two open scopes have the same target. *)
Theorem C10_innermost_value : forall s c g,
  NoDup (map sTarget (scopes s)) ->
  innermost (cID c) (scopes s) g ->
  ScopeConst s c = (mkQConst (cID c) (sValue g), true).
Proof. intros s c g ND H. unfold ScopeConst. now rewrite (find_scope_innermost _ _ g). Qed.
Print Assumptions C10_innermost_value.

(* After opening a scope for id (not open yet) and setting its value, a
   constant with that ID has exactly that value. *)
Theorem C10_set_scope_binds : forall s id i val own,
  unbound id (scopes s) ->
  ScopeConst (snd (SetScope (AddScope s id) i val)) (mkQConst id own)
  = (mkQConst id val, true).
Proof.
  intros [sc sv] id i val own H. unfold SetScope, AddScope. cbn [scopes svars] in *.
  destruct (sc ++ [mkScope id [] 0]) as [|g l] eqn:E; [destruct sc; discriminate|].
  rewrite <- E. cbn [snd]. rewrite removelast_last, last_last. unfold ScopeConst. cbn [scopes cID sTarget].
  rewrite find_scope_app, find_scope_unbound by auto. simpl. now rewrite String.eqb_refl.
Qed.
Print Assumptions C10_set_scope_binds.

(* False for nested scopes with the same target: the outermost wins. *)
Theorem C10_nested_same_id_refuted : exists s c g,
  innermost (cID c) (scopes s) g /\ fst (ScopeConst s c) <> mkQConst (cID c) (sValue g).
Proof.
  exists (mkScoper [mkScope "c" [ZERO] 0; mkScope "c" [ONE] 1] []), (mkQConst "c" []), (mkScope "c" [ONE] 1).
  split; [apply (inn_here "c" [mkScope "c" [ZERO] 0]); reflexivity|discriminate].
Qed.
Print Assumptions C10_nested_same_id_refuted.

Example C10_case :
  let s := sc_after (mkScoper [] []) [KAddScope "a"; KSetScope 0 [BOT]; KAddScope "b"; KSetScope 1 [ONE]] in
  NoDup (map sTarget (scopes s)) /\ innermost "a" (scopes s) (mkScope "a" [BOT] 0).
Proof.
  split.
  - repeat constructor; simpl; intuition discriminate.
  - apply (inn_outer "a" [mkScope "a" [BOT] 0]); [discriminate|]. apply (inn_here "a" []). reflexivity.
Qed.

(* ---- C40 ---- *)

Definition valid_feat (x : FeatV) : Prop := x = BOT \/ x = ZERO \/ x = ONE.

Theorem C40_all_bot : forall d, cVal (AllBotConst d) = repeat BOT d.
Proof.
  intros d. unfold AllBotConst. cbn [cVal].
  assert (G : forall l f, (forall x, In x f -> x = BOT) ->
    length (fold_left (fun f (_ : nat) => list_set f 0 BOT) l f) = length f /\
    (forall x, In x (fold_left (fun f (_ : nat) => list_set f 0 BOT) l f) -> x = BOT)).
  { induction l as [|a l IH]; intros f Hf; simpl; auto.
    destruct (IH (list_set f 0 BOT)) as [A B].
    - intros x Hx. destruct f; simpl in Hx; [contradiction|]. destruct Hx as [<-|Hx]; auto.
      apply Hf; simpl; auto.
    - rewrite A. split; auto. destruct f; reflexivity. }
  destruct (G (seq 0 d) (repeat 0 d)) as [A B].
  - intros x Hx. apply repeat_spec in Hx. exact Hx.
  - rewrite repeat_length in A. revert A B.
    generalize (fold_left (fun f (_ : nat) => list_set f 0 BOT) (seq 0 d) (repeat 0 d)).
    induction d; intros [|y l] A B; simpl in *; try discriminate; auto.
    rewrite (B y) by auto. f_equal. apply IHd; auto.
Qed.
Print Assumptions C40_all_bot.

Theorem C40_full_botcount : forall c,
  (IsFull c = true <-> ~ In BOT (cVal c)) /\
  (BotCount c = 0 <-> ~ In BOT (cVal c)) /\
  BotCount c = Z.of_nat (count_occ Z.eq_dec (cVal c) BOT).
Proof.
  intros c.
  assert (B : BotCount c = Z.of_nat (count_occ Z.eq_dec (cVal c) BOT)).
  { unfold BotCount.
    assert (G : forall l k, fold_left (fun count ft => if ft =? BOT then count + 1 else count) l k
              = k + Z.of_nat (count_occ Z.eq_dec l BOT)).
    { induction l as [|x l IH]; intros k; simpl; [lia|]. rewrite IH.
      destruct (Z.eqb_spec x BOT), (Z.eq_dec x BOT); try contradiction; lia. }
    rewrite G. lia. }
  split; [|split; auto].
  - unfold IsFull. rewrite forallb_forall. split.
    + intros H Hin. apply H in Hin. discriminate.
    + intros H x Hx. apply negb_true_iff, Z.eqb_neq. intros ->. contradiction.
  - rewrite B. rewrite (count_occ_not_In Z.eq_dec). lia.
Qed.
Print Assumptions C40_full_botcount.

Theorem C40_equal_value : forall c t, EqualValue c t = true <-> cVal c = cVal t.
Proof.
  intros [i a] [j b]. unfold EqualValue. cbn [cVal].
  assert (G : forall a b, length a = length b -> (equal_vals a b = true <-> a = b)).
  { clear. induction a as [|x a IH]; intros [|y b] H; simpl in *; try discriminate; split; auto; try discriminate.
    - intros E. apply andb_true_iff in E as [E1 E2]. apply Z.eqb_eq in E1 as ->.
      f_equal. apply IH; auto.
    - intros [= -> ->]. rewrite Z.eqb_refl. simpl. apply IH; auto. }
  destruct (Nat.eqb_spec (length a) (length b)) as [E|E].
  - apply G; auto.
  - split; [discriminate|intros ->; congruence].
Qed.
Print Assumptions C40_equal_value.

Theorem C40_as_string_injective : forall a b,
  Forall valid_feat (cVal a) -> Forall valid_feat (cVal b) ->
  AsString a = AsString b -> cVal a = cVal b.
Proof.
  intros [i a] [j b] Ha Hb. unfold AsString. cbn [cVal] in *.
  assert (F : forall l s, fold_left (fun s ft => (s ++ featString ft)%string) l s
            = (s ++ fold_left (fun s ft => (s ++ featString ft)%string) l "")%string).
  { induction l as [|x l IH]; intros s; simpl; [now rewrite sapp_nil_r|].
    rewrite (IH (s ++ featString x)%string), (IH (featString x)). now rewrite sapp_assoc. }
  revert b Hb. induction Ha as [|x a Hx Ha IH]; intros b Hb; destruct Hb as [|y b Hy Hb]; auto; simpl;
    rewrite ?(F _ (featString _)); intros H.
  - destruct Hy as [E|[E|E]]; subst y; discriminate.
  - destruct Hx as [E|[E|E]]; subst x; discriminate.
  - destruct Hx as [E|[E|E]], Hy as [E'|[E'|E']]; subst x y; simpl in H; try discriminate;
      injection H as H; f_equal; auto.
Qed.
Print Assumptions C40_as_string_injective.

Theorem C40_validate_dims : forall d consts,
  ValidateConstsDim d consts = None <-> (forall c, In c consts -> length (cVal c) = d).
Proof.
  intros d consts. unfold ValidateConstsDim. generalize 0.
  induction consts as [|c l IH]; intros i; simpl.
  - split; [intros _ ? []|auto].
  - destruct (Nat.eqb_spec (length (cVal c)) d) as [E|E].
    + rewrite IH. split; [intros H x [<-|Hx]; auto|auto].
    + split; [discriminate|intros H; exfalso; auto].
Qed.
Print Assumptions C40_validate_dims.

Example C40_case :
  AsString (mkQConst "" [BOT; ONE; ZERO]) = "_10" /\ BotCount (mkQConst "" [BOT; ONE; BOT]) = 2 /\
  cVal (AllBotConst 3) = [BOT; BOT; BOT].
Proof. repeat split. Qed.
