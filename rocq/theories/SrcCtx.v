(* The methods of a context that lives in the first cell of the heap, and the
   clauses that the encoders build with it. *)
From Verif Require Import GoBase GoLemmas Cnf Query Walk Atoms Logop GoLang GoSource SrcBase SrcLemmas SrcCnf SrcQuery.
Local Open Scope string_scope.
Local Open Scope Z_scope.
Local Open Scope list_scope.

(* The heap with the context first. *)
Definition hc (s : scoper) (M : model) (g : heap) (vm : varman) : heap := v_ctx (mkCtx s vm M) :: g.

Global Hint Extern 1 (_ <= _)%nat => lia : gometh.

Section Methods.
  Variables (n : nat) (r : expr) (s : scoper) (M : model) (g : heap) (vm : varman)
            (env : list frame) (d : list (list stmt)).
  Notation st h := (mkMs env d h).
  Notation K := (kind_of prog).

  Lemma prim_other t m :
    existsb (name_eqb t) ["strings.Builder"; "Model"; "bytes.Buffer"; "os.File"; "exec.ExitError"; "exec.Cmd"] = false ->
    forall fs args, match prim_meth t m fs args with
                    | Some r => Some (xlift r)
                    | None => sys_meth t m fs args
                    end = None.
  Proof.
    cbn [existsb]. rewrite !orb_false_iff. intros (H1 & H2 & H3 & H4 & H5 & H6 & _) fs args. unfold prim_meth, sys_meth.
    now rewrite H1, H2, H3, H4, H5, H6.
  Qed.

  Lemma xm_scoper m f args s' vs w :
    K (dot "query.baseQContext" m) = None ->
    dot "query.baseScoper" m = f -> K f = Some true ->
    gocall n f (v_scoper s :: args) (hc s M g vm) = (Ok (v_scoper s' :: vs), hc s M g vm) ->
    one vs = w ->
    XM n r m (VPtr 0) args (st (hc s M g vm)) = (Ok w, st (hc s' M g vm)).
  Proof.
    intros H1 <- H2 H3 <-. unfold x_method, x_load, xbind. cbn [mHeap hc heap_get nth_error].
    unfold v_ctx at 1. cbn [cScoper cVM cModel]. unfold method, own_method. rewrite H1, prim_other by reflexivity.
    change (embedded_of prog "query.baseQContext") with ["baseScoper"; "baseVarManager"; "Model"].
    cbn [promoted flookup name_eqb String.eqb Ascii.eqb Bool.eqb]. unfold v_scoper at 1.
    unfold own_method. rewrite H2. unfold xbind, x_call. cbn [mHeap mEnv mDefers].
    match goal with |- context [VStc "query.baseScoper" ?l] =>
      change (VStc "query.baseScoper" l) with (v_scoper s) end.
    rewrite H3. reflexivity.
  Qed.

  Lemma xm_scoper_panic m f args :
    K (dot "query.baseQContext" m) = None ->
    dot "query.baseScoper" m = f -> K f = Some true ->
    gocall n f (v_scoper s :: args) (hc s M g vm) = (Panic, hc s M g vm) ->
    XM n r m (VPtr 0) args (st (hc s M g vm)) = (Panic, st (hc s M g vm)).
  Proof.
    intros H1 <- H2 H3. unfold x_method, x_load, xbind. cbn [mHeap hc heap_get nth_error].
    unfold v_ctx at 1. cbn [cScoper cVM cModel]. unfold method, own_method. rewrite H1, prim_other by reflexivity.
    change (embedded_of prog "query.baseQContext") with ["baseScoper"; "baseVarManager"; "Model"].
    cbn [promoted flookup name_eqb String.eqb Ascii.eqb Bool.eqb]. unfold v_scoper at 1.
    unfold own_method. rewrite H2. unfold xbind, x_call. cbn [mHeap mEnv mDefers].
    match goal with |- context [VStc "query.baseScoper" ?l] =>
      change (VStc "query.baseScoper" l) with (v_scoper s) end.
    rewrite H3. reflexivity.
  Qed.

  Lemma xm_manager m f args vm' vs w :
    K (dot "query.baseQContext" m) = None -> K (dot "query.baseScoper" m) = None ->
    dot "query.baseVarManager" m = f -> K f = Some true ->
    gocall n f (v_varman vm :: args) (hc s M g vm) = (Ok (v_varman vm' :: vs), hc s M g vm) ->
    one vs = w ->
    XM n r m (VPtr 0) args (st (hc s M g vm)) = (Ok w, st (hc s M g vm')).
  Proof.
    intros H0 H1 <- H2 H3 <-. unfold x_method, x_load, xbind. cbn [mHeap hc heap_get nth_error].
    unfold v_ctx at 1. cbn [cScoper cVM cModel]. unfold method, own_method. rewrite H0, prim_other by reflexivity.
    change (embedded_of prog "query.baseQContext") with ["baseScoper"; "baseVarManager"; "Model"].
    cbn [promoted flookup name_eqb String.eqb Ascii.eqb Bool.eqb]. unfold v_scoper at 1.
    unfold own_method. rewrite H1, prim_other by reflexivity.
    unfold v_varman at 1. rewrite H2. unfold xbind, x_call. cbn [mHeap mEnv mDefers].
    match goal with |- context [gocall n _ (VStc "query.baseVarManager" ?l :: _)] =>
      change (VStc "query.baseVarManager" l) with (v_varman vm) end.
    rewrite H3. reflexivity.
  Qed.

  Lemma xm_model m vs w :
    K (dot "query.baseQContext" m) = None -> K (dot "query.baseScoper" m) = None ->
    K (dot "query.baseVarManager" m) = None -> K (dot "Model" m) = None ->
    (forall fs, v_model M = VStc "Model" fs -> prim_meth "Model" m fs [] = Some (Ok (vs, None))) ->
    one vs = w ->
    XM n r m (VPtr 0) [] (st (hc s M g vm)) = (Ok w, st (hc s M g vm)).
  Proof.
    intros H0 H1 H2 H3 H4 <-. unfold x_method, x_load, xbind. cbn [mHeap hc heap_get nth_error].
    unfold v_ctx at 1. cbn [cScoper cVM cModel]. unfold method, own_method. rewrite H0, prim_other by reflexivity.
    change (embedded_of prog "query.baseQContext") with ["baseScoper"; "baseVarManager"; "Model"].
    cbn [promoted flookup name_eqb String.eqb Ascii.eqb Bool.eqb]. unfold v_scoper at 1.
    unfold own_method. rewrite H1, prim_other by reflexivity.
    unfold v_varman at 1. rewrite H2, prim_other by reflexivity.
    unfold v_model at 1. rewrite H3, (H4 _ eq_refl). reflexivity.
  Qed.

  Lemma xm_CNFVar v i x :
    (1 <= n)%nat ->
    XM n r "CNFVar" (VPtr 0) [VStr v; VInt i; VInt x] (st (hc s M g vm))
    = (Ok (VInt (fst (CNFVar vm (v, i, x)))), st (hc s M g (snd (CNFVar vm (v, i, x))))).
  Proof.
    intros Hn. eapply xm_manager; [vm_compute; reflexivity | vm_compute; reflexivity | reflexivity
      | vm_compute; reflexivity | now apply go_CNFVar | reflexivity].
  Qed.
  Lemma xm_CNFVarExists v i x :
    (1 <= n)%nat ->
    XM n r "CNFVarExists" (VPtr 0) [VStr v; VInt i; VInt x] (st (hc s M g vm))
    = (Ok (VBool (CNFVarExists vm (v, i, x))), st (hc s M g vm)).
  Proof.
    intros Hn. eapply xm_manager; [vm_compute; reflexivity | vm_compute; reflexivity | reflexivity
      | vm_compute; reflexivity | now apply go_CNFVarExists | reflexivity].
  Qed.
  Lemma xm_TopV :
    (1 <= n)%nat ->
    XM n r "TopV" (VPtr 0) [] (st (hc s M g vm)) = (Ok (VInt (vm_topv vm)), st (hc s M g vm)).
  Proof.
    intros Hn. eapply xm_manager; [vm_compute; reflexivity | vm_compute; reflexivity | reflexivity
      | vm_compute; reflexivity | now apply go_TopV | reflexivity].
  Qed.
  Lemma xm_UpdateTopV k :
    (1 <= n)%nat ->
    XM n r "UpdateTopV" (VPtr 0) [VInt k] (st (hc s M g vm))
    = (Ok (VBool (fst (UpdateTopV vm k))), st (hc s M g (snd (UpdateTopV vm k)))).
  Proof.
    intros Hn. eapply xm_manager; [vm_compute; reflexivity | vm_compute; reflexivity | reflexivity
      | vm_compute; reflexivity | now apply go_UpdateTopV | reflexivity].
  Qed.
  Lemma xm_ScopeVar v w :
    (levels s + 2 <= n)%nat -> ScopeVar s v = Ok w ->
    XM n r "ScopeVar" (VPtr 0) [VStr v] (st (hc s M g vm)) = (Ok (VStr w), st (hc s M g vm)).
  Proof.
    intros Hn E. eapply xm_scoper; [vm_compute; reflexivity | reflexivity
      | vm_compute; reflexivity | rewrite go_ScopeVar by exact Hn; rewrite E; reflexivity | reflexivity].
  Qed.
  Lemma xm_ScopeVar_panic v :
    (levels s + 2 <= n)%nat -> (forall w, ScopeVar s v <> Ok w) ->
    XM n r "ScopeVar" (VPtr 0) [VStr v] (st (hc s M g vm)) = (Panic, st (hc s M g vm)).
  Proof.
    intros Hn E. eapply xm_scoper_panic; [vm_compute; reflexivity | reflexivity
      | vm_compute; reflexivity | rewrite go_ScopeVar by exact Hn].
    destruct (ScopeVar s v) as [w| | |]; [now destruct (E w)|reflexivity..].
  Qed.
  Lemma xm_ScopeConst c :
    (1 <= n)%nat ->
    XM n r "ScopeConst" (VPtr 0) [v_const c] (st (hc s M g vm))
    = (Ok (VTup [v_const (fst (ScopeConst s c)); VBool (snd (ScopeConst s c))]), st (hc s M g vm)).
  Proof.
    intros Hn. eapply xm_scoper; [vm_compute; reflexivity | reflexivity
      | vm_compute; reflexivity | now apply go_ScopeConst | reflexivity].
  Qed.
  Lemma xm_AddVar v :
    (1 <= n)%nat ->
    XM n r "AddVar" (VPtr 0) [VStr v] (st (hc s M g vm)) = (Ok (one []), st (hc (AddVar s v) M g vm)).
  Proof.
    intros Hn. eapply xm_scoper; [vm_compute; reflexivity | reflexivity
      | vm_compute; reflexivity | now apply go_AddVar | reflexivity].
  Qed.
  Lemma xm_AddScope v :
    (1 <= n)%nat ->
    XM n r "AddScope" (VPtr 0) [VStr v] (st (hc s M g vm)) = (Ok (one []), st (hc (AddScope s v) M g vm)).
  Proof.
    intros Hn. eapply xm_scoper; [vm_compute; reflexivity | reflexivity
      | vm_compute; reflexivity | now apply go_AddScope | reflexivity].
  Qed.
  Lemma xm_SetScope i l :
    (1 <= n)%nat ->
    XM n r "SetScope" (VPtr 0) [VInt i; v_feats l] (st (hc s M g vm))
    = (Ok (v_err (fst (SetScope s i l))), st (hc (snd (SetScope s i l)) M g vm)).
  Proof.
    intros Hn. eapply xm_scoper; [vm_compute; reflexivity | reflexivity
      | vm_compute; reflexivity | now apply go_SetScope | reflexivity].
  Qed.
  Lemma xm_PopScope :
    (1 <= n)%nat -> NoDup (map fst (svars s)) ->
    XM n r "PopScope" (VPtr 0) [] (st (hc s M g vm))
    = (Ok (v_err (fst (PopScope s))), st (hc (snd (PopScope s)) M g vm)).
  Proof.
    intros Hn Hd. eapply xm_scoper; [vm_compute; reflexivity | reflexivity
      | vm_compute; reflexivity | now apply go_PopScope | reflexivity].
  Qed.
  Lemma xm_Dim :
    XM n r "Dim" (VPtr 0) [] (st (hc s M g vm)) = (Ok (VInt (Z.of_nat (Dim M))), st (hc s M g vm)).
  Proof.
    eapply xm_model; [vm_compute; reflexivity | vm_compute; reflexivity | vm_compute; reflexivity
      | vm_compute; reflexivity | intros fs [= <-]; reflexivity | reflexivity].
  Qed.
  Lemma xm_Nodes :
    XM n r "Nodes" (VPtr 0) [] (st (hc s M g vm)) = (Ok (v_nodes (Nodes M)), st (hc s M g vm)).
  Proof.
    eapply xm_model; [vm_compute; reflexivity | vm_compute; reflexivity | vm_compute; reflexivity
      | vm_compute; reflexivity | intros fs [= <-]; reflexivity | reflexivity].
  Qed.
End Methods.
Global Hint Resolve xm_CNFVar xm_CNFVarExists xm_TopV xm_UpdateTopV xm_ScopeVar xm_ScopeConst xm_AddVar
  xm_AddScope xm_SetScope xm_PopScope xm_Dim xm_Nodes : gometh.

(* ---- clauses ---- *)

Section Clauses.
  Variables (n : nat) (env : list frame) (d : list (list stmt)) (s : scoper) (M : model) (g : heap).
  Notation st vm := (mkMs env d (hc s M g vm)).

  Definition lit_val (vm : varman) (l : slit) : Z :=
    if fst l then fst (CNFVar vm (snd l)) else - fst (CNFVar vm (snd l)).

  (* Expressions for a value that does not touch the context, a literal, a clause
     and a list of clauses. *)
  Definition PureE (e : expr) (v : val) : Prop :=
    forall vm, EV n e (st vm) = (Ok v, st vm).
  Definition LitE (e : expr) (l : slit) : Prop :=
    forall vm, EV n e (st vm) = (Ok (VInt (lit_val vm l)), st (snd (CNFVar vm (snd l)))).
  Definition ClauseE (es : list expr) (cl : sclause) : Prop :=
    forall vm, x_map (EV n) es (st vm)
      = (Ok (map VInt (fst (alloc_clause vm cl))), st (snd (alloc_clause vm cl))).
  Definition ClausesE (es : list expr) (cls : list sclause) : Prop :=
    forall vm, x_map (EV n) es (st vm)
      = (Ok (map v_clause (fst (alloc_clauses vm cls))), st (snd (alloc_clauses vm cls))).

  Lemma lit_pos c v i x v' i' x' :
    (1 <= n)%nat -> elookup c env = Some (VPtr 0) ->
    PureE v (VStr v') -> PureE i (VInt i') -> PureE x (VInt x') ->
    LitE (XMeth (XVar c) "CNFVar" [v; i; x]) (true, (v', i', x')).
  Proof.
    intros Hn Hc H1 H2 H3 vm. eapply ev_meth.
    - eapply ev_var. exact Hc.
    - eapply xm_cons; [apply H1|]. eapply xm_cons; [apply H2|]. eapply xm_cons; [apply H3|]. apply xm_nil.
    - now apply xm_CNFVar.
  Qed.
  Lemma lit_neg c v i x v' i' x' :
    (1 <= n)%nat -> elookup c env = Some (VPtr 0) ->
    PureE v (VStr v') -> PureE i (VInt i') -> PureE x (VInt x') ->
    LitE (XNeg (XMeth (XVar c) "CNFVar" [v; i; x])) (false, (v', i', x')).
  Proof.
    intros Hn Hc H1 H2 H3 vm. eapply ev_neg. eapply (lit_pos c v i x v' i' x'); assumption.
  Qed.
  Lemma cl_nil : ClauseE [] [].
  Proof. intros vm. reflexivity. Qed.
  Lemma cl_cons e es l cl : LitE e l -> ClauseE es cl -> ClauseE (e :: es) (l :: cl).
  Proof.
    intros H1 H2 vm. eapply eq_trans; [eapply xm_cons; [apply H1 | apply H2]|].
    destruct l as [b t]. cbn [alloc_clause snd]. unfold lit_val. cbn [fst snd].
    destruct (CNFVar vm t) as [k vm1]. cbn [fst snd]. destruct (alloc_clause vm1 cl) as [r vm2]. reflexivity.
  Qed.
  Lemma cls_nil : ClausesE [] [].
  Proof. intros vm. reflexivity. Qed.
  Lemma cls_cons es r cl cls : ClauseE es cl -> ClausesE r cls -> ClausesE (XLst es :: r) (cl :: cls).
  Proof.
    intros H1 H2 vm. eapply eq_trans; [eapply xm_cons; [apply ev_lst; apply H1 | apply H2]|].
    cbn [alloc_clauses]. destruct (alloc_clause vm cl) as [c vm1]. cbn [fst snd].
    destruct (alloc_clauses vm1 cls) as [r' vm2]. reflexivity.
  Qed.

  (* the two kinds of slice expressions, new and appended to *)
  Lemma ev_clause es cl vm :
    ClauseE es cl ->
    EV n (XLst es) (st vm) = (Ok (v_clause (fst (alloc_clause vm cl))), st (snd (alloc_clause vm cl))).
  Proof. intros H. apply ev_lst, H. Qed.
  Lemma ev_clauses es cls vm :
    ClausesE es cls ->
    EV n (XLst es) (st vm) = (Ok (v_clauses (fst (alloc_clauses vm cls))), st (snd (alloc_clauses vm cls))).
  Proof. intros H. apply ev_lst, H. Qed.
  Lemma ev_app_clause e acc es cl vm :
    EV n e (st vm) = (Ok (v_clause acc), st vm) -> ClauseE es cl ->
    EV n (XApp e es) (st vm)
    = (Ok (v_clause (acc ++ fst (alloc_clause vm cl))), st (snd (alloc_clause vm cl))).
  Proof.
    intros H1 H2. eapply eq_trans; [eapply ev_app; [exact H1 | apply H2]|].
    unfold v_clause. now rewrite map_app.
  Qed.
  Lemma ev_app_clauses e acc es cls vm :
    EV n e (st vm) = (Ok (v_clauses acc), st vm) -> ClausesE es cls ->
    EV n (XApp e es) (st vm)
    = (Ok (v_clauses (acc ++ fst (alloc_clauses vm cls))), st (snd (alloc_clauses vm cls))).
  Proof.
    intros H1 H2. eapply eq_trans; [eapply ev_app; [exact H1 | apply H2]|].
    unfold v_clauses. now rewrite map_app.
  Qed.
End Clauses.

Lemma ev_true n st :
  EV n (XStc "cnf.CNF" [("tv", XInt 0); ("sClauses", XLst []); ("cClauses", XLst [])]) st = (Ok (v_cnf TrueCNF), st).
Proof. reflexivity. Qed.
Ltac pureE := let vm := fresh "vm" in intros vm; ev.
Ltac litE :=
  lazymatch goal with
  | |- LitE _ _ _ _ _ _ (XMeth _ _ _) _ => eapply lit_pos; [lia | look | pureE | pureE | pureE]
  | |- LitE _ _ _ _ _ _ (XNeg _) _ => eapply lit_neg; [lia | look | pureE | pureE | pureE]
  end.
Ltac clauseE :=
  lazymatch goal with
  | |- ClauseE _ _ _ _ _ _ [] _ => apply cl_nil
  | |- ClauseE _ _ _ _ _ _ (_ :: _) _ => eapply cl_cons; [litE | clauseE]
  end.
Ltac clausesE :=
  lazymatch goal with
  | |- ClausesE _ _ _ _ _ _ [] _ => apply cls_nil
  | |- ClausesE _ _ _ _ _ _ (_ :: _) _ => eapply cls_cons; [clauseE | clausesE]
  end.
Ltac ev_hook e ::=
  lazymatch e with
  | XStc "cnf.CNF" [("tv"%string, XInt 0); ("sClauses"%string, XLst []); ("cClauses"%string, XLst [])] => apply ev_true
  | XLst (XLst _ :: _) => eapply ev_clauses; clausesE
  | XLst (XMeth (XVar _) "CNFVar" _ :: _) => eapply ev_clause; clauseE
  | XLst (XNeg (XMeth (XVar _) "CNFVar" _) :: _) => eapply ev_clause; clauseE
  | XApp _ (XLst _ :: _) => eapply ev_app_clauses; [ev | clausesE]
  | XApp _ (XMeth (XVar _) "CNFVar" _ :: _) => eapply ev_app_clause; [ev | clauseE]
  | XApp _ (XNeg (XMeth (XVar _) "CNFVar" _) :: _) => eapply ev_app_clause; [ev | clauseE]
  end.

(* ---- what loops accumulate ---- *)

Lemma alloc_clauses_app vm a b :
  alloc_clauses vm (a ++ b)
  = (fst (alloc_clauses vm a) ++ fst (alloc_clauses (snd (alloc_clauses vm a)) b),
     snd (alloc_clauses (snd (alloc_clauses vm a)) b)).
Proof.
  revert vm. induction a as [|cl a IH]; intros vm; cbn [app alloc_clauses fst snd].
  - now destruct (alloc_clauses vm b).
  - destruct (alloc_clause vm cl) as [c vm1]. rewrite IH. destruct (alloc_clauses vm1 a) as [x vm2].
    reflexivity.
Qed.
Lemma alloc_clause_app vm a b :
  alloc_clause vm (a ++ b)
  = (fst (alloc_clause vm a) ++ fst (alloc_clause (snd (alloc_clause vm a)) b),
     snd (alloc_clause (snd (alloc_clause vm a)) b)).
Proof.
  revert vm. induction a as [|[s t] a IH]; intros vm; cbn [app alloc_clause fst snd].
  - now destruct (alloc_clause vm b).
  - destruct (CNFVar vm t) as [k vm1]. rewrite IH. destruct (alloc_clause vm1 a) as [x vm2].
    reflexivity.
Qed.

(* Clauses appended to a list, literals to a clause. *)
Definition addp (cls : list sclause) (p : list clause * varman) : list clause * varman :=
  (fst p ++ fst (alloc_clauses (snd p) cls), snd (alloc_clauses (snd p) cls)).
Definition addl (cl : sclause) (p : clause * varman) : clause * varman :=
  (fst p ++ fst (alloc_clause (snd p) cl), snd (alloc_clause (snd p) cl)).
(* One step on a formula. *)
Definition emitp (e : emit) (p : CNF * varman) : CNF * varman :=
  match e with
  | EAlloc l => (fst p, alloc_vars (snd p) l)
  | EFrom cls => (FromClauses (fst (alloc_clauses (snd p) cls)), snd (alloc_clauses (snd p) cls))
  | ESem cls =>
      (AppendSemantics (fst p) (fst (alloc_clauses (snd p) cls)), snd (alloc_clauses (snd p) cls))
  | ECons cls =>
      (AppendConsistency (fst p) (fst (alloc_clauses (snd p) cls)), snd (alloc_clauses (snd p) cls))
  end.

Lemma addp_nil p : addp [] p = p.
Proof. destruct p as [a vm]. unfold addp. cbn. now rewrite app_nil_r. Qed.
Lemma addp_app a b p : addp (a ++ b) p = addp b (addp a p).
Proof.
  destruct p as [acc vm]. unfold addp. cbn [fst snd]. rewrite alloc_clauses_app. cbn [fst snd].
  now rewrite app_assoc.
Qed.
Lemma addp_start cls vm : addp cls ([], vm) = alloc_clauses vm cls.
Proof. unfold addp. cbn. now destruct (alloc_clauses vm cls). Qed.
Lemma addp_fold {A} (f : A -> list sclause) l p :
  fold_left (fun p a => addp (f a) p) l p = addp (flat_map f l) p.
Proof.
  revert p. induction l as [|a l IH]; intros p; cbn [fold_left flat_map]; [now rewrite addp_nil|].
  now rewrite IH, addp_app.
Qed.
Lemma addp_map {A} (f : A -> sclause) l p :
  fold_left (fun p a => addp [f a] p) l p = addp (map f l) p.
Proof. rewrite (addp_fold (fun a => [f a])). reflexivity. Qed.
Lemma addl_nil p : addl [] p = p.
Proof. destruct p as [a vm]. unfold addl. cbn. now rewrite app_nil_r. Qed.
Lemma addl_app a b p : addl (a ++ b) p = addl b (addl a p).
Proof.
  destruct p as [acc vm]. unfold addl. cbn [fst snd]. rewrite alloc_clause_app. cbn [fst snd].
  now rewrite app_assoc.
Qed.
Lemma addl_start cl vm : addl cl ([], vm) = alloc_clause vm cl.
Proof. unfold addl. cbn. now destruct (alloc_clause vm cl). Qed.
Lemma addl_fold {A} (f : A -> sclause) l p :
  fold_left (fun p a => addl (f a) p) l p = addl (flat_map f l) p.
Proof.
  revert p. induction l as [|a l IH]; intros p; cbn [fold_left flat_map]; [now rewrite addl_nil|].
  now rewrite IH, addl_app.
Qed.
Lemma addl_map {A} (f : A -> slit) l p :
  fold_left (fun p a => addl [f a] p) l p = addl (map f l) p.
Proof. rewrite (addl_fold (fun a => [f a])). reflexivity. Qed.
Lemma emitp_run e p : emitp e p = run_emit p e.
Proof. destruct p as [c vm], e as [l|cls|cls|cls]; cbn; [reflexivity|..]; now destruct (alloc_clauses vm cls). Qed.
(* Several steps. *)
Definition emitsp (es : list emit) (p : CNF * varman) : CNF * varman := fold_left (fun p e => emitp e p) es p.
Lemma emitsp_app a b p : emitsp (a ++ b) p = emitsp b (emitsp a p).
Proof. apply fold_left_app. Qed.
Lemma emitsp_start es vm : emitsp es (TrueCNF, vm) = run_emits vm es.
Proof.
  unfold emitsp, run_emits. generalize (TrueCNF, vm) as p. induction es as [|e es IH]; intros p; [reflexivity|].
  cbn [fold_left]. now rewrite IH, emitp_run.
Qed.
Lemma emit_map {A} (f : A -> emit) l p :
  fold_left (fun p a => emitp (f a) p) l p = emitsp (map f l) p.
Proof. revert p. induction l as [|a l IH]; intros p; [reflexivity|]. cbn. apply IH. Qed.
Lemma emit_flat_map {A} (f : A -> list emit) l p :
  fold_left (fun p a => emitsp (f a) p) l p = emitsp (flat_map f l) p.
Proof.
  revert p. induction l as [|a l IH]; intros p; [reflexivity|]. cbn [fold_left flat_map].
  now rewrite IH, emitsp_app.
Qed.
Lemma alloc_one vm cl : alloc_clauses vm [cl] = ([fst (alloc_clause vm cl)], snd (alloc_clause vm cl)).
Proof. cbn. now destruct (alloc_clause vm cl). Qed.
(* A clause made before it is appended. *)
Lemma emitp_sem1 cl p :
  emitp (ESem [cl]) p
  = (AppendSemantics (fst p) [fst (alloc_clause (snd p) cl)], snd (alloc_clause (snd p) cl)).
Proof. unfold emitp. now rewrite alloc_one. Qed.

(* Range loops with index. *)
Fixpoint ifold {A T} (f : Z -> A -> T -> T) (i : Z) (l : list A) (s : T) : T :=
  match l with [] => s | a :: r => ifold f (i + 1) r (f i a s) end.
Lemma rrun_inl {A T E} (f : Z -> A -> T -> T) i l s :
  rrun (fun i a s => @inl T E (f i a s)) i l s = inl (ifold f i l s).
Proof. revert i s. induction l as [|a l IH]; intros i s; [reflexivity|]. cbn. apply IH. Qed.
Lemma addp_ifold {A} (f : Z -> A -> list sclause) l p :
  ifold (fun i a => addp (f i a)) 0 l p = addp (concat (mapi f l)) p.
Proof.
  unfold mapi. generalize 0 as i. revert p.
  induction l as [|a l IH]; intros p i; cbn [ifold mapi_from concat]; [now rewrite addp_nil|].
  now rewrite IH, addp_app.
Qed.
Lemma emit_ifold {A} (f : Z -> A -> list emit) l p :
  ifold (fun i a => emitsp (f i a)) 0 l p = emitsp (concat (mapi f l)) p.
Proof.
  unfold mapi. generalize 0 as i. revert p.
  induction l as [|a l IH]; intros p i; cbn [ifold mapi_from concat]; [reflexivity|].
  now rewrite IH, emitsp_app.
Qed.
Lemma ifold_ext {A T} (f h : Z -> A -> T -> T) l i s :
  (forall i a s, f i a s = h i a s) -> ifold f i l s = ifold h i l s.
Proof. intros E. revert i s. induction l as [|a l IH]; intros i s; [reflexivity|]. cbn. now rewrite E, IH. Qed.

(* ---- loops ---- *)

(* for x := lo; x < hi; x++ with its own variable / with a variable declared before *)
Ltac mk_for new x us hp st :=
  lazymatch new with
  | true => red_upd (fun i s => push [(x, VInt i)] (updh (us s) (hp s) st))
  | false => red_upd (fun i s => push [] (updh ((x, VInt i) :: us s) (hp s) st))
  end.
Lemma cond_eq (st : ms) a b : a = b -> (Ok (VBool a), st) = (Ok (VBool b), st).
Proof. now intros ->. Qed.
Ltac le_cond := eapply eq_trans; [ev | apply cond_eq; lia].
Ltac forl new x us hp stp init top :=
  lazymatch goal with
  | |- context [run_block _ None (SFor _ _ _ _ :: _) ?st] =>
      let mk := mk_for new x us hp st in
      let i := fresh "i" in let s := fresh "s" in let Hi := fresh "Hi" in
      erewrite plug_step;
        [ | eapply (ex_for_up _ mk stp) with (s0 := init) (hi := top);
            [ blk
            | intros i s; red_env; first [solve [ev] | le_cond]
            | intros i s Hi; red_env
            | intros i s; red_env; blk
            | try lia ] ]
  end.

Tactic Notation "for_new" constr(x) constr(us) constr(hp) constr(stp) "from" constr(init) "to" constr(hi) :=
  forl true x us hp stp init hi.
Tactic Notation "for_old" constr(x) constr(us) constr(hp) constr(stp) "from" constr(init) "to" constr(hi) :=
  forl false x us hp stp init hi.

(* for i, a := range l *)
Ltac rngi us hp stp init :=
  lazymatch goal with
  | |- context [run_block _ None (SRange _ _ _ _ :: _) ?st] =>
      let mk := red_upd (fun s => updh (us s) (hp s) st) in
      let i := fresh "i" in let a := fresh "a" in let s := fresh "s" in
      let Hi := fresh "Hi" in let Hn := fresh "Hn" in
      erewrite plug_exec;
        [ | eapply (ex_range_run _ mk (fun i a s => inl (stp i a s))) with (s0 := init);
            [ev | intros i a s Hi Hn; red_env] ];
        [ rewrite rrun_inl | ]
  end.
Tactic Notation "range_idx" constr(us) constr(hp) constr(stp) "from" constr(init) := rngi us hp stp init.
(* the end of a loop's body *)
Ltac endbody := eexists; split; [|reflexivity]; (now left) || (now right).
