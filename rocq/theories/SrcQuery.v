(* The functions of query/*.go, run from their source text, do what the
   functions of Query.v do. *)
From Coq Require Import ZifyBool.
From Verif Require Import GoBase GoLemmas Cnf Query Walk Atoms Logop GoLang GoSource SrcBase SrcLemmas SrcCnf.
Local Open Scope string_scope.
Local Open Scope Z_scope.
Local Open Scope list_scope.

(* ---- instances.go ---- *)

(* query/instances.go:43-50 *)
Lemma go_IsFull n h c :
  (1 <= n)%nat -> gocall n "query.QConst.IsFull" [v_const c] h = (Ok [VBool (IsFull c)], h).
Proof.
  func src_query_QConst_IsFull.
  rngr (fun _ : unit => @nil (string * val))
    (fun (_ : Z) ft (_ : unit) =>
       if ft =? BOT then @inr unit _ (Ok (FRet (Some [VBool false])), mkMs [[("c", v_const c)]] [] h)
       else inl tt) tt.
  - unfold IsFull. generalize 0 as i. induction (cVal c) as [|x l IH]; intros i;
      cbn [rrun forallb].
    + sts. reflexivity.
    + destruct (x =? BOT); cbn [negb andb]; [sts; reflexivity|apply IH].
  - st1. change (a =? 0) with (a =? BOT). destruct (a =? BOT).
    + split; [sts; reflexivity|exact Logic.I].
    + exists FNext. split; [now left|]. sts. reflexivity.
Qed.
Global Hint Resolve go_IsFull : gocall.

(* query/instances.go:53-66 *)
Lemma go_AsString n h c :
  (1 <= n)%nat -> gocall n "query.QConst.AsString" [v_const c] h = (Ok [VStr (AsString c)], h).
Proof.
  func src_query_QConst_AsString. st1.
  rng (fun s => [("sb", v_builder s)]) (fun ft s => (s ++ featString ft)%string).
  - sts. reflexivity.
  - unfold featString, BOT, ZERO, ONE. sts. destruct (a =? 0); [sts; reflexivity|].
    sts. destruct (a =? 1); [sts; reflexivity|].
    sts. destruct (a =? 2); [sts; reflexivity|].
    sts. now rewrite sapp_nil_r.
Qed.
Global Hint Resolve go_AsString : gocall.

(* query/instances.go:69-77 *)
Lemma go_BotCount n h c :
  (1 <= n)%nat -> gocall n "query.QConst.BotCount" [v_const c] h = (Ok [VInt (BotCount c)], h).
Proof.
  func src_query_QConst_BotCount. st1.
  rng (fun s => [("count", VInt s)]) (fun ft count => if ft =? BOT then count + 1 else count).
  - sts. reflexivity.
  - st1. change (a =? 0) with (a =? BOT). destruct (a =? BOT); sts; reflexivity.
Qed.
Global Hint Resolve go_BotCount : gocall.

(* query/instances.go:80-92 *)
Lemma go_EqualValue n h c t :
  (1 <= n)%nat ->
  gocall n "query.QConst.EqualValue" [v_const c; v_const t] h = (Ok [VBool (EqualValue c t)], h).
Proof.
  func src_query_QConst_EqualValue. st1. unfold EqualValue.
  replace (Z.of_nat (length (cVal c)) =? Z.of_nat (length (cVal t)))
    with (length (cVal c) =? length (cVal t))%nat by lia.
  destruct (Nat.eqb_spec (length (cVal c)) (length (cVal t))) as [El|El].
  2:{ cbv iota. sts. reflexivity. }
  cbv iota. sts.
  rngr (fun _ : unit => @nil (string * val))
    (fun (i : Z) ft (_ : unit) =>
       if ft =? vget (cVal t) i then inl tt
       else @inr unit _ (Ok (FRet (Some [VBool false])),
              mkMs [[("c", v_const c); ("t", v_const t)]] [] h)) tt.
  2:{ assert (Hl : (Z.to_nat i < length (cVal c))%nat) by (apply nth_error_Some; congruence).
      st1. destruct (a =? vget (cVal t) i); cbv iota.
      - exists FNext. split; [now left|]. sts. reflexivity.
      - split; [sts; reflexivity|exact Logic.I]. }
  assert (E : forall l m pre, cVal t = pre ++ m -> length l = length m ->
     rrun (fun (i : Z) ft (_ : unit) =>
       if ft =? vget (cVal t) i then inl tt
       else @inr unit (res flow * ms) (Ok (FRet (Some [VBool false])),
              mkMs [[("c", v_const c); ("t", v_const t)]] [] h)) (Z.of_nat (length pre)) l tt
     = if equal_vals l m then inl tt
       else inr (Ok (FRet (Some [VBool false])),
              mkMs [[("c", v_const c); ("t", v_const t)]] [] h)).
  { induction l as [|x l IH]; intros [|y m] pre Et Hl; try discriminate; [reflexivity|].
    cbn [rrun equal_vals].
    assert (Ey : vget (cVal t) (Z.of_nat (length pre)) = y).
    { unfold vget. rewrite Nat2Z.id, Et. apply nth_middle. }
    rewrite Ey. destruct (x =? y); cbn [andb]; [|reflexivity].
    specialize (IH m (pre ++ [y])). rewrite app_length in IH. cbn [length] in IH.
    replace (Z.of_nat (length pre) + 1) with (Z.of_nat (length pre + 1)) by lia.
    apply IH; [now rewrite <- app_assoc|now injection Hl]. }
  specialize (E (cVal c) (cVal t) [] eq_refl El).
  change (Z.of_nat (length (@nil Z))) with 0 in E. rewrite E.
  destruct (equal_vals (cVal c) (cVal t)); sts; reflexivity.
Qed.
Global Hint Resolve go_EqualValue : gocall.

(* query/instances.go:96-111 *)
Lemma go_ValidateConstsDim n h d cs :
  (1 <= n)%nat ->
  gocall n "query.ValidateConstsDim" [VInt (Z.of_nat d); VLst (map v_const cs)] h
  = (Ok [v_err (ValidateConstsDim d cs)], h).
Proof.
  func src_query_ValidateConstsDim. unfold ValidateConstsDim.
  rngr (fun _ : unit => @nil (string * val))
    (fun (i : Z) c (_ : unit) =>
       if (length (cVal c) =? d)%nat then inl tt
       else @inr unit _ (Ok (FRet (Some [VErr
              ("constant" ++ itoa (i + 1) ++ ": wrong dim "
                 ++ itoa (Z.of_nat (length (cVal c))) ++ " ("
                 ++ itoa (Z.of_nat d) ++ " feats in context)")%string []])),
              mkMs [[("d", VInt (Z.of_nat d)); ("consts", VLst (map v_const cs))]] [] h)) tt.
  2:{ st1. replace (Z.of_nat (length (cVal a)) =? Z.of_nat d)
        with (length (cVal a) =? d)%nat by lia.
      destruct (length (cVal a) =? d)%nat; cbv iota.
      - exists FNext. split; [now left|]. sts. reflexivity.
      - split; [sts; reflexivity|exact Logic.I]. }
  assert (E : forall l i st, rrun (fun (i : Z) c (_ : unit) =>
       if (length (cVal c) =? d)%nat then inl tt
       else @inr unit _ (Ok (FRet (Some [VErr
              ("constant" ++ itoa (i + 1) ++ ": wrong dim "
                 ++ itoa (Z.of_nat (length (cVal c))) ++ " ("
                 ++ itoa (Z.of_nat d) ++ " feats in context)")%string []])), st)) i l tt
     = match validate_from i d l with
       | Some e => @inr unit (res flow * ms) (Ok (FRet (Some [VErr e []])), st)
       | None => inl tt
       end).
  { induction l as [|c l IH]; intros i st; [reflexivity|]. cbn [rrun validate_from].
    destruct (length (cVal c) =? d)%nat; [apply IH|reflexivity]. }
  rewrite E. destruct (validate_from 0 d cs); sts; reflexivity.
Qed.
Global Hint Resolve go_ValidateConstsDim : gocall.

(* query/model.go:35-37 *)
Lemma go_IsLeaf n h x :
  (1 <= n)%nat -> gocall n "query.Node.IsLeaf" [v_node x] h = (Ok [VBool (IsLeaf x)], h).
Proof. func src_query_Node_IsLeaf. sts. reflexivity. Qed.
Global Hint Resolve go_IsLeaf : gocall.

(* ---- varmanager.go ---- *)

Lemma veq_varRep a b : veq (v_varRep a) (v_varRep b) = varRep_eqb a b.
Proof.
  destruct a as [[v i] x], b as [[w j] y]. unfold v_varRep, varRep_eqb. cbn.
  now rewrite andb_true_r, andb_assoc.
Qed.
Lemma map_get_vars l t :
  map_get (v_varRep t) (v_vars l) = option_map VInt (vlookup l t).
Proof.
  induction l as [|[k x] l IH]; [reflexivity|]. cbn [v_vars map map_get vlookup fst snd].
  rewrite veq_varRep. destruct (varRep_eqb k t); [reflexivity|exact IH].
Qed.
Lemma map_upd_vars l t v :
  vlookup l t = None -> map_upd (v_varRep t) v (v_vars l) = None.
Proof.
  induction l as [|[k x] l IH]; [reflexivity|]. cbn [v_vars map map_upd vlookup fst snd].
  rewrite veq_varRep. destruct (varRep_eqb k t); [discriminate|]. intros H.
  unfold v_vars in IH. now rewrite IH.
Qed.

(* query/varmanager.go:36-38 *)
Lemma go_TopV n h vm :
  (1 <= n)%nat ->
  gocall n "query.baseVarManager.TopV" [v_varman vm] h
  = (Ok [v_varman vm; VInt (vm_topv vm)], h).
Proof. func src_query_baseVarManager_TopV. sts. reflexivity. Qed.
Global Hint Resolve go_TopV : gocall.

(* query/varmanager.go:40-46 *)
Lemma go_UpdateTopV n h vm v :
  (1 <= n)%nat ->
  gocall n "query.baseVarManager.UpdateTopV" [v_varman vm; VInt v] h
  = (Ok [v_varman (snd (UpdateTopV vm v)); VBool (fst (UpdateTopV vm v))], h).
Proof.
  func src_query_baseVarManager_UpdateTopV. st1. unfold UpdateTopV.
  destruct (v <? vm_topv vm); sts; reflexivity.
Qed.
Global Hint Resolve go_UpdateTopV : gocall.

(* query/varmanager.go:48-56 *)
Lemma go_CNFVar n h vm v i x :
  (1 <= n)%nat ->
  gocall n "query.baseVarManager.CNFVar" [v_varman vm; VStr v; VInt i; VInt x] h
  = (Ok [v_varman (snd (CNFVar vm (v, i, x))); VInt (fst (CNFVar vm (v, i, x)))], h).
Proof.
  func src_query_baseVarManager_CNFVar. st1.
  match goal with |- context [VStc "query.varRep" ?l] =>
    change (VStc "query.varRep" l) with (v_varRep (v, i, x)) end.
  unfold CNFVar.
  assert (Ei : v_index2 (VMap (v_vars (vm_vars vm))) (v_varRep (v, i, x))
    = Ok (VTup (match vlookup (vm_vars vm) (v, i, x) with
                | Some k => [VInt k; VBool true]
                | None => [map_zero (v_vars (vm_vars vm)); VBool false]
                end))).
  { cbn [v_index2]. rewrite map_get_vars. now destruct (vlookup _ _). }
  pose proof (map_upd_vars (vm_vars vm) (v, i, x) (VInt (vm_topv vm + 1))) as Eu.
  destruct (vlookup (vm_vars vm) (v, i, x)) as [k|].
  - erewrite plug_if; [|eapply blk_step; [eapply ex_assign2; [eapply ev_idx2; [ev|ev|exact Ei]|asg|asg]|apply blk_nil]|ev].
    red_cond. sts. reflexivity.
  - erewrite plug_if; [|eapply blk_step; [eapply ex_assign2; [eapply ev_idx2; [ev|ev|exact Ei]|asg|asg]|apply blk_nil]|ev].
    red_cond. do 4 st1. st1.
    erewrite plug_step; [|eapply ex_assign; [ev|eapply as_idx; [ev|rd| |asg]]].
    2:{ cbn [v_set_index]. unfold map_set. rewrite Eu by reflexivity. reflexivity. }
    sts. reflexivity.
Qed.
Global Hint Resolve go_CNFVar : gocall.

(* query/varmanager.go:58-61 *)
Lemma go_CNFVarExists n h vm v i x :
  (1 <= n)%nat ->
  gocall n "query.baseVarManager.CNFVarExists" [v_varman vm; VStr v; VInt i; VInt x] h
  = (Ok [v_varman vm; VBool (CNFVarExists vm (v, i, x))], h).
Proof.
  func src_query_baseVarManager_CNFVarExists. unfold CNFVarExists.
  assert (Ei : v_index2 (VMap (v_vars (vm_vars vm))) (v_varRep (v, i, x))
    = Ok (VTup (match vlookup (vm_vars vm) (v, i, x) with
                | Some k => [VInt k; VBool true]
                | None => [map_zero (v_vars (vm_vars vm)); VBool false]
                end))).
  { cbn [v_index2]. rewrite map_get_vars. now destruct (vlookup _ _). }
  destruct (vlookup (vm_vars vm) (v, i, x)) as [k|].
  all: erewrite plug_step; [|eapply ex_assign2; [eapply ev_idx2; [ev|ev|exact Ei]|asg|asg]].
  all: sts; reflexivity.
Qed.
Global Hint Resolve go_CNFVarExists : gocall.

(* query/varmanager.go:63-66 *)
Lemma go_VarmanReset n h vm :
  (1 <= n)%nat ->
  gocall n "query.baseVarManager.Reset" [v_varman vm] h = (Ok [v_varman (VarmanReset vm)], h).
Proof. func src_query_baseVarManager_Reset. sts. reflexivity. Qed.
Global Hint Resolve go_VarmanReset : gocall.

(* ---- scoper.go ---- *)

Lemma map_get_levels l v :
  map_get (VStr v) (v_levels l) = option_map (fun k => VInt (Z.of_nat k)) (slookup l v).
Proof.
  induction l as [|[k x] l IH]; [reflexivity|].
  cbn [v_levels map map_get slookup fst snd veq veq0].
  destruct (String.eqb k v); [reflexivity|exact IH].
Qed.
Lemma map_upd_levels l v w :
  slookup l v = None -> map_upd (VStr v) w (v_levels l) = None.
Proof.
  induction l as [|[k x] l IH]; [reflexivity|].
  cbn [v_levels map map_upd slookup fst snd veq veq0].
  destruct (String.eqb k v); [discriminate|]. intros H. unfold v_levels in IH. now rewrite IH.
Qed.
Lemma map_zero_levels l : map_zero (v_levels l) = VInt 0.
Proof. now destruct l as [|[]]. Qed.

(* The level of a variable; every level is at most [levels s]. *)
Definition level (s : scoper) (v : string) : nat :=
  match slookup (svars s) v with Some k => k | None => 0%nat end.
Definition levels (s : scoper) : nat := list_max (map snd (svars s)).
Lemma level_le s v : (level s v <= levels s)%nat.
Proof.
  unfold level, levels. induction (svars s) as [|[k x] l IH]; [apply Nat.le_0_l|].
  cbn [slookup map snd]. change (list_max (x :: map snd l)) with (Nat.max x (list_max (map snd l))).
  destruct (String.eqb k v); lia.
Qed.

Lemma idx_level s v :
  v_index (VMap (v_levels (svars s))) (VStr v) = Ok (VInt (Z.of_nat (level s v))).
Proof.
  cbn [v_index]. rewrite map_get_levels, map_zero_levels. unfold level.
  now destruct (slookup (svars s) v).
Qed.

(* query/scoper.go:48-67 *)
Lemma scope_run s (mk : Z -> string -> ms) stp k : forall i b,
  (forall i b, stp i b = match sget (scopes s) i with
               | Ok sc => inl (b ++ scope_suffix sc)%string
               | _ => inr (@Panic flow, mk i (b ++ String us EmptyString)%string) end) ->
  match fold_left
     (fun acc i => rdo b <- acc ;; rdo sc <- sget (scopes s) (Z.of_nat i) ;;
                   Ok (b ++ scope_suffix sc)%string) (seq i k) (Ok b) with
  | Ok w => zrun stp (zrange (Z.of_nat i) (Z.of_nat (i + k))) b = inl w
  | _ => exists j b', zrun stp (zrange (Z.of_nat i) (Z.of_nat (i + k))) b
                      = inr (@Panic flow, mk j b')
  end.
Proof.
  induction k as [|k IH]; intros i b Hs.
  - rewrite zrange_nil by lia. reflexivity.
  - rewrite zrange_cons by lia. cbn [seq fold_left zrun]. cbn [rbind]. rewrite Hs.
    assert (Hd : forall l, fold_left (fun acc i => rdo b <- acc ;;
               rdo sc <- sget (scopes s) (Z.of_nat i) ;;
               Ok (b ++ scope_suffix sc)%string) l Panic = Panic).
    { induction l as [|x l IHl]; [reflexivity|exact IHl]. }
    destruct (sget (scopes s) (Z.of_nat i)) as [sc|e| |] eqn:Eg; cbn [rbind].
    + specialize (IH (Datatypes.S i) (b ++ scope_suffix sc)%string Hs).
      replace (Z.of_nat i + 1) with (Z.of_nat (Datatypes.S i)) by lia.
      replace (i + Datatypes.S k)%nat with (Datatypes.S i + k)%nat by lia. exact IH.
    + unfold sget in Eg. destruct (_ <? _); [discriminate|].
      destruct (nth_error _ _); discriminate.
    + rewrite Hd. eauto.
    + unfold sget in Eg. destruct (_ <? _); [discriminate|].
      destruct (nth_error _ _); discriminate.
Qed.

Lemma go_ScopeVar n h s v :
  (levels s + 2 <= n)%nat ->
  gocall n "query.baseScoper.ScopeVar" [v_scoper s; VStr v] h
  = match ScopeVar s v with
    | Ok w => (Ok [v_scoper s; VStr w], h)
    | _ => (Panic, h)
    end.
Proof.
  func src_query_baseScoper_ScopeVar. st1. unfold ScopeVar.
  replace (Z.of_nat (length (scopes s)) =? 0) with (length (scopes s) =? 0)%nat by lia.
  destruct (length (scopes s) =? 0)%nat; [cbv iota; sts; reflexivity|].
  cbv iota. do 4 st1.
  erewrite plug_step; [|reflexivity]. st1. cbn [String.append].
  match goal with |- context [run_block _ None (SFor _ _ _ _ :: _) ?st] =>
    let mk := red_upd (fun (i : Z) b => mkMs
         [[("i", VInt i)]; [("s", VStc "query.baseScoper"
            [("builder", v_builder b); ("scopes", VLst (map v_scope (scopes s)));
             ("vars", VMap (v_levels (svars s)))]); ("v", VStr v)]] (mDefers st) (mHeap st)) in
    erewrite plug_exec; [|eapply (ex_for_run n mk
      (fun i b => match sget (scopes s) i with
                  | Ok sc => inl (b ++ scope_suffix sc)%string
                  | _ => inr (Panic, mk i (b ++ String us EmptyString)%string)
                  end) 0 (Z.of_nat (level s v))) with (s0 := v)]
  end.
  2:{ blk. }
  2:{ intros i b.
      eapply ev_bin; [discriminate|discriminate|ev|eapply ev_idx; [ev|ev|apply idx_level]|prim_tac]. }
  3:{ intros i b. blk. }
  3:{ pose proof (level_le s v). lia. }
  2:{ intros i b Hi.
      assert (Eg : v_index (VLst (map v_scope (scopes s))) (VInt i)
                   = match sget (scopes s) i with Ok sc => Ok (v_scope sc) | _ => Panic end).
      { cbn [v_index]. rewrite sget_map. unfold sget. destruct (i <? 0); [reflexivity|].
        now destruct (nth_error (scopes s) (Z.to_nat i)). }
      destruct (sget (scopes s) i) as [sc| | |].
      - exists FNext. split; [now left|]. red_env. st1.
        sts. repeat f_equal. unfold v_builder, scope_suffix. now rewrite !sapp_assoc.
      - split; [|exact Logic.I]. red_env. st1.
        erewrite plug_panic; [|eapply ex_expr_panic, ev_meth_panic;
          [ev|eapply xm_here_panic, ev_sel_panic, ev_idx_panic; [ev|ev|exact Eg]]].
        sts. reflexivity.
      - split; [|exact Logic.I]. red_env. st1.
        erewrite plug_panic; [|eapply ex_expr_panic, ev_meth_panic;
          [ev|eapply xm_here_panic, ev_sel_panic, ev_idx_panic; [ev|ev|exact Eg]]].
        sts. reflexivity.
      - split; [|exact Logic.I]. red_env. st1.
        erewrite plug_panic; [|eapply ex_expr_panic, ev_meth_panic;
          [ev|eapply xm_here_panic, ev_sel_panic, ev_idx_panic; [ev|ev|exact Eg]]].
        sts. reflexivity. }
  match goal with |- context [zrun ?stp _ _] =>
    pose proof (scope_run s (fun i b => mkMs
         [[("i", VInt i)]; [("s", VStc "query.baseScoper"
            [("builder", v_builder b); ("scopes", VLst (map v_scope (scopes s)));
             ("vars", VMap (v_levels (svars s)))]); ("v", VStr v)]]
         [[SExpr (XMeth (XSel (XVar "s") "builder") "Reset" [])]] h) stp (level s v) 0%nat v
         (fun _ _ => eq_refl)) as E
  end.
  change (Z.of_nat 0) with 0 in E. change (0 + level s v)%nat with (level s v) in E.
  change (match slookup (svars s) v with Some n0 => n0 | None => 0%nat end) with (level s v).
  destruct (fold_left _ (seq 0 (level s v)) (Ok v)) as [w|e| |];
    [rewrite E; sts; reflexivity| | |];
    destruct E as (j & b' & ->); cbn [fst snd]; red_env; sts;
    (erewrite fin_panic_defer; [|blk]); reflexivity.
Qed.
Global Hint Resolve go_ScopeVar : gocall.

(* query/scoper.go:69-78 *)
Lemma go_AddVar n h s v :
  (1 <= n)%nat ->
  gocall n "query.baseScoper.AddVar" [v_scoper s; VStr v] h = (Ok [v_scoper (AddVar s v)], h).
Proof.
  func src_query_baseScoper_AddVar. st1. unfold AddVar.
  replace (Z.of_nat (length (scopes s)) =? 0) with (length (scopes s) =? 0)%nat by lia.
  destruct (length (scopes s) =? 0)%nat; [cbv iota; sts; reflexivity|].
  cbv iota. do 3 st1.
  pose proof (map_get_levels (svars s) v) as Eg.
  assert (Ei : v_index2 (VMap (v_levels (svars s))) (VStr v)
    = Ok (VTup (match slookup (svars s) v with
                | Some k => [VInt (Z.of_nat k); VBool true]
                | None => [VInt 0; VBool false] end))).
  { cbn [v_index2]. rewrite Eg, map_zero_levels. now destruct (slookup _ _). }
  destruct (slookup (svars s) v) as [k|] eqn:El.
  - st1. sts. reflexivity.
  - assert (Es : v_set_index (VMap (v_levels (svars s))) (VStr v)
                   (VInt (Z.of_nat (length (scopes s))))
               = Ok (VMap (v_levels ((v, length (scopes s)) :: svars s)))).
    { cbn [v_set_index]. unfold map_set. now rewrite map_upd_levels by assumption. }
    st1. sts. reflexivity.
Qed.
Global Hint Resolve go_AddVar : gocall.

(* query/scoper.go:80-87 *)
Lemma go_ScopeConst n h s c :
  (1 <= n)%nat ->
  gocall n "query.baseScoper.ScopeConst" [v_scoper s; v_const c] h
  = (Ok [v_scoper s; v_const (fst (ScopeConst s c)); VBool (snd (ScopeConst s c))], h).
Proof.
  func src_query_baseScoper_ScopeConst.
  rngr (fun _ : unit => @nil (string * val))
    (fun (_ : Z) (g : scope) (_ : unit) =>
       if String.eqb (sTarget g) (cID c)
       then @inr unit (res flow * ms)
              (Ok (FRet (Some [v_const (mkQConst (cID c) (sValue g)); VBool true])),
               mkMs [[("s", v_scoper s); ("c", v_const c)]] [] h)
       else inl tt) tt.
  - assert (E : forall l i, rrun (fun (_ : Z) (g : scope) (_ : unit) =>
       if String.eqb (sTarget g) (cID c)
       then @inr unit (res flow * ms)
              (Ok (FRet (Some [v_const (mkQConst (cID c) (sValue g)); VBool true])),
               mkMs [[("s", v_scoper s); ("c", v_const c)]] [] h)
       else inl tt) i l tt
     = match find_scope l (cID c) with
       | Some g => inr (Ok (FRet (Some [v_const (mkQConst (cID c) (sValue g)); VBool true])),
               mkMs [[("s", v_scoper s); ("c", v_const c)]] [] h)
       | None => inl tt end).
    { induction l as [|g l IH]; intros i; [reflexivity|]. cbn [rrun find_scope].
      destruct (String.eqb (sTarget g) (cID c)); [reflexivity|apply IH]. }
    rewrite E. unfold ScopeConst. destruct (find_scope (scopes s) (cID c)); sts; reflexivity.
  - st1. destruct (String.eqb (sTarget a) (cID c)).
    + split; [sts; reflexivity|exact Logic.I].
    + exists FNext. split; [now left|]. sts. now destruct s0.
Qed.
Global Hint Resolve go_ScopeConst : gocall.

(* query/scoper.go:89-91 *)
Lemma go_AddScope n h s t :
  (1 <= n)%nat ->
  gocall n "query.baseScoper.AddScope" [v_scoper s; VStr t] h = (Ok [v_scoper (AddScope s t)], h).
Proof.
  func src_query_baseScoper_AddScope. sts. unfold v_scoper, AddScope. cbn [scopes svars].
  rewrite map_app. reflexivity.
Qed.
Global Hint Resolve go_AddScope : gocall.

Lemma list_set_end {A} (l : list A) x y : list_set (l ++ [x]) (length l) y = l ++ [y].
Proof. induction l as [|a l IH]; [reflexivity|]. cbn. now rewrite IH. Qed.

(* query/scoper.go:109-117 *)
Lemma go_SetScope n h s i val :
  (1 <= n)%nat ->
  gocall n "query.baseScoper.SetScope" [v_scoper s; VInt i; v_feats val] h
  = (Ok [v_scoper (snd (SetScope s i val)); v_err (fst (SetScope s i val))], h).
Proof.
  func src_query_baseScoper_SetScope. st1. st1. unfold SetScope.
  destruct s as [sc sv]. cbn [scopes svars].
  destruct sc as [|g l _] using rev_ind; [cbn [length]; brT; sts; reflexivity|].
  rewrite app_length. cbn [length]. rewrite removelast_last, last_last.
  brF. unfold v_scoper. cbn [scopes svars]. rewrite !map_app. cbn [map].
  assert (Ei : forall w, v_index (VLst (map v_scope l ++ [w]))
                 (VInt (Z.of_nat (length l + 1) - 1)) = Ok w).
  { intros w. cbn [v_index]. unfold sget.
    destruct (_ <? 0) eqn:E; [lia|].
    rewrite nth_error_app2 by (rewrite map_length; lia). rewrite map_length.
    now replace (Z.to_nat _ - length l)%nat with 0%nat by lia. }
  assert (Es : forall w v, v_set_index (VLst (map v_scope l ++ [w]))
                 (VInt (Z.of_nat (length l + 1) - 1)) v = Ok (VLst (map v_scope l ++ [v]))).
  { intros w v. cbn [v_set_index]. unfold sset.
    destruct (_ <? 0) eqn:E; [lia|]. rewrite app_length, map_length. cbn [length].
    destruct (_ <? _)%nat eqn:E'; [|lia]. cbn [rbind]. do 2 f_equal.
    replace (Z.to_nat _) with (length (map v_scope l)) by (rewrite map_length; lia).
    apply list_set_end. }
  do 3 st1. sts.
  assert (Em : forall A (a b : A), match l ++ [g] with [] => a | _ :: _ => b end = b)
    by (intros; now destruct l).
  rewrite Em. cbn [fst snd scopes svars]. rewrite map_app. reflexivity.
Qed.
Global Hint Resolve go_SetScope : gocall.

Lemma filter_of_map {A B} (f : B -> bool) (g : A -> B) l :
  filter f (map g l) = map g (filter (fun x => f (g x)) l).
Proof.
  induction l as [|a l IH]; [reflexivity|]. cbn. destruct (f (g a)); cbn; now rewrite IH.
Qed.
Lemma filter_filter {A} (f g : A -> bool) l :
  filter f (filter g l) = filter (fun x => g x && f x) l.
Proof.
  induction l as [|a l IH]; [reflexivity|]. cbn. destruct (g a); cbn; [|exact IH].
  destruct (f a); now rewrite IH.
Qed.
Lemma same_key {A} (all : list (string * A)) p q :
  NoDup (map fst all) -> In p all -> In q all -> fst p = fst q -> p = q.
Proof.
  induction all as [|r all IH]; [now intros|]. cbn [map]. intros N Hp Hq E.
  inversion N; subst. destruct Hp as [->|Hp], Hq as [->|Hq]; auto.
  - now exfalso; apply H1; rewrite E; apply in_map.
  - now exfalso; apply H1; rewrite <- E; apply in_map.
Qed.
Lemma filter_deleted n (all : list (string * nat)) :
  NoDup (map fst all) -> forall l m, incl l all -> incl m all ->
  fold_left (fun m p => if (snd p =? n)%nat
                        then filter (fun q => negb (String.eqb (fst q) (fst p))) m else m) l m
  = filter (fun kv => negb ((snd kv =? n)%nat && existsb (fun p => String.eqb (fst p) (fst kv)) l))
      m.
Proof.
  intros N. induction l as [|p l IH]; intros m Hl Hm.
  - cbn [fold_left existsb]. symmetry. transitivity (filter (fun _ => true) m).
    + apply filter_ext. intros q. now rewrite andb_false_r.
    + clear. induction m as [|q m IH]; [reflexivity|]. cbn. now rewrite IH.
  - cbn [fold_left]. rewrite IH.
    2:{ intros x Hx. apply Hl. now right. }
    2:{ destruct (snd p =? n)%nat; [|exact Hm].
        intros x Hx. apply Hm. now apply filter_In in Hx. }
    assert (Hp : In p all) by (apply Hl; now left).
    destruct (snd p =? n)%nat eqn:Ep.
    + rewrite filter_filter. apply filter_ext_in. intros q Hq. cbn [existsb].
      rewrite (String.eqb_sym (fst p)). destruct (String.eqb (fst q) (fst p)) eqn:E; cbn [orb negb andb]; [|reflexivity].
      apply String.eqb_eq in E. rewrite (same_key all q p) by auto. now rewrite Ep.
    + apply filter_ext_in. intros q Hq. cbn [existsb].
      destruct (String.eqb (fst p) (fst q)) eqn:E; cbn [orb]; [|reflexivity].
      apply String.eqb_eq in E. rewrite <- (same_key all p q) by auto. now rewrite Ep.
Qed.

(* query/scoper.go:93-107; the keys of a map are different *)
Lemma go_PopScope n h s :
  (1 <= n)%nat -> NoDup (map fst (svars s)) ->
  gocall n "query.baseScoper.PopScope" [v_scoper s] h
  = (Ok [v_scoper (snd (PopScope s)); v_err (fst (PopScope s))], h).
Proof.
  func src_query_baseScoper_PopScope. st1. unfold PopScope.
  destruct s as [sc sv]. cbn [scopes svars] in *.
  destruct sc as [|g l _] using rev_ind; [cbn [length]; brT; sts; reflexivity|].
  rewrite app_length. cbn [length]. rewrite removelast_last.
  assert (Em : forall A (a b : A), match l ++ [g] with [] => a | _ :: _ => b end = b)
    by (intros; now destruct l).
  rewrite Em. clear Em. brF. cbn [fst snd scopes svars].
  sts.
  match goal with
  | |- context [run_block _ None (SRange _ _ _ _ :: _) ?st] =>
      let mk := red_upd (fun m => upd [("s", VStc "query.baseScoper"
            [("builder", v_builder ""); ("scopes", VLst (map v_scope (l ++ [g])));
             ("vars", VMap (v_levels m))])] st) in
      erewrite plug_step;
        [ | eapply (ex_range_map _ mk (fun p m => if (snd p =? length l + 1)%nat
                        then filter (fun q => negb (String.eqb (fst q) (fst p))) m else m)
               (fun p => (VStr (fst p), VInt (Z.of_nat (snd p)))));
            [ev | intros p m; exists FNext; split; [now left|]; red_env] ]
  end.
  2:{ cbn [fst snd]. st1. rewrite app_length. cbn [length].
      replace (Z.of_nat (snd p) =? _) with (snd p =? length l + 1)%nat by lia.
      destruct (snd p =? length l + 1)%nat; sts; [|reflexivity].
      repeat f_equal. unfold v_levels.
      rewrite filter_of_map. reflexivity. }
  assert (Es : v_slice (VLst (map v_scope (l ++ [g]))) None
                 (Some (VInt (Z.of_nat (length (l ++ [g])) - 1)))
               = Ok (VLst (map v_scope l))).
  { unfold v_slice, v_len. cbn [rbind]. rewrite map_length, app_length. cbn [length].
    destruct (_ && _) eqn:E; [|lia]. do 2 f_equal.
    rewrite skipn_O, map_app.
    replace (Z.to_nat _) with (length (map v_scope l)) by (rewrite map_length; lia).
    now rewrite firstn_app, Nat.sub_diag, firstn_all, app_nil_r. }
  sts. rewrite (filter_deleted _ sv) by (try assumption; apply incl_refl). cbn [scopes svars].
  match goal with |- context [filter ?f sv] =>
    match f with context [@existsb] => idtac end;
    rewrite (filter_ext_in f (fun kv => negb (snd kv =? length l + 1)%nat) sv) end; [reflexivity|].
  intros [k x] Hin. cbn [fst snd]. f_equal.
  replace (existsb _ sv) with true; [now rewrite andb_true_r|].
  symmetry. apply existsb_exists. exists (k, x). split; [assumption|apply String.eqb_refl].
Qed.
Global Hint Resolve go_PopScope : gocall.

(* query/scoper.go:119-121 *)
Lemma go_ScoperReset n h s :
  (1 <= n)%nat ->
  gocall n "query.baseScoper.Reset" [v_scoper s] h = (Ok [v_scoper (ScoperReset s)], h).
Proof. func src_query_baseScoper_Reset. sts. reflexivity. Qed.
Global Hint Resolve go_ScoperReset : gocall.

(* ---- context.go ---- *)

(* query/context.go:24-30 *)
Lemma go_BasicQContext n h m :
  (1 <= n)%nat ->
  gocall n "query.BasicQContext" [v_model m] h
  = (Ok [VPtr (length h)], h ++ [v_ctx (BasicQContext m)]).
Proof. func src_query_BasicQContext. sts. reflexivity. Qed.

(* query/context.go:33-39 *)
Lemma go_CtxReset n h c :
  (2 <= n)%nat ->
  gocall n "query.baseQContext.Reset" [v_ctx c] h = (Ok [v_ctx (CtxReset c)], h).
Proof. func src_query_baseQContext_Reset. st1. brF. sts. reflexivity. Qed.

(* query/instances.go:32-40 *)
Lemma go_AllBotConst n h d :
  (d + 2 <= n)%nat ->
  gocall n "query.AllBotConst" [VInt (Z.of_nat d)] h = (Ok [v_const (AllBotConst d)], h).
Proof.
  func src_query_AllBotConst.
  assert (Em : v_make (VInt 0) (VInt (Z.of_nat d)) = Ok (v_feats (repeat 0 d))).
  { unfold v_make. destruct (_ <? 0) eqn:E; [lia|]. unfold v_feats.
    rewrite Nat2Z.id. do 2 f_equal. clear. induction d; [reflexivity|]. cbn. now rewrite <- IHd. }
  assert (Es : 0 < Z.of_nat d -> v_set_index (v_feats (repeat 0 d)) (VInt 0) (VInt 0)
               = Ok (v_feats (repeat 0 d))).
  { intros Hd. destruct d as [|d]; [lia|]. reflexivity. }
  st1.
  match goal with |- context [run_block _ None (SFor _ _ _ _ :: _) ?st] =>
    let mk := red_upd (fun (i : Z) (_ : unit) => mkMs ([("i", VInt i)] :: mEnv st) (mDefers st) (mHeap st)) in
    erewrite plug_step; [|eapply (ex_for_up n mk (fun _ u => u) 0 (Z.of_nat d) _ _ _ _ _ tt)]
  end; [|blk|intros i u; ev|intros i u Hi; specialize (Es ltac:(lia))|intros i u; blk|lia].
  2:{ exists FNext. split; [now left|]. red_env. sts. reflexivity. }
  sts. unfold AllBotConst. do 3 f_equal. clear. unfold v_const. cbn [cID cVal].
  replace (fold_left _ _ _) with (repeat 0 d); [reflexivity|].
  assert (E : forall l, fold_left (fun f (_ : nat) => list_set f 0 BOT) l (repeat 0 d) = repeat 0 d).
  { induction l as [|x l IH]; [reflexivity|]. cbn [fold_left].
    replace (list_set (repeat 0 d) 0 BOT) with (repeat 0 d); [exact IH|]. now destruct d. }
  now rewrite E.
Qed.
Global Hint Resolve go_AllBotConst : gocall.
