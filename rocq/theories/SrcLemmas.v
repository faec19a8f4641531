(* Stepping through functions of GoSource.v. *)
From Coq Require Import ZifyBool.
From Verif Require Import GoBase Cnf Query Walk Atoms Logop GoLang GoSource SrcBase.
Local Open Scope string_scope.
Local Open Scope Z_scope.
Local Open Scope list_scope.

Notation EV n := (eval (kind_of prog) (embedded_of prog) (global_of prog) (gocall n)).
Notation EX n := (exec (kind_of prog) (embedded_of prog) (global_of prog) (gocall n) n).
Notation XM n := (x_method (kind_of prog) (embedded_of prog) (gocall n)).

(* ---- what is left to do after a block ---- *)

Inductive kont :=
| KSeq (r : list stmt)        (* go on with these statements *)
| KPop.                       (* leave a block *)

(* Dropping a frame. *)
Definition push (f : frame) (s : ms) : ms := mkMs (f :: mEnv s) (mDefers s) (mHeap s).
Definition pop (s : ms) : ms := mkMs (tl (mEnv s)) (mDefers s) (mHeap s).

Section Plug.
  Variable n : nat.
  Definition kstep (k : kont) (p : res flow * ms) : res flow * ms :=
    match k with
    | KPop => (fst p, pop (snd p))
    | KSeq r =>
        match p with
        | (Ok FNext, s) => run_block (EX n) None r s
        | (Ok (FGoto l), s) => run_block (EX n) (Some l) r s
        | p => p
        end
    end.
  Fixpoint plug (ks : list kont) (p : res flow * ms) : res flow * ms :=
    match ks with
    | [] => p
    | k :: ks => plug ks (kstep k p)
    end.

  (* The end of a call. *)
  Definition fin (fn : func) (p : res flow * ms) : res (list val) * heap :=
    match p with
    | (Ok fl, s) =>
        let (r, s) := finish (kind_of prog) (embedded_of prog) (global_of prog)
                        (gocall n) n fn fl s in (r, mHeap s)
    | (Panic, s) =>
        let (_, s) := run_defers (kind_of prog) (embedded_of prog) (global_of prog)
                        (gocall n) n (mDefers s) s in (Panic, mHeap s)
    | (Err e, s) => (Err e, mHeap s)
    | (Hang, s) => (Hang, mHeap s)
    end.
End Plug.

Lemma plug_app n ks ks' p : plug n (ks ++ ks') p = plug n ks' (plug n ks p).
Proof. revert p. induction ks as [|k ks IH]; intros p; cbn; [reflexivity|apply IH]. Qed.

(* A call of a function without named results. *)
Lemma call_intro n f fn args h b ps :
  find_func prog f = Some fn -> fresults fn = [] -> fbody fn = b -> fparams fn = ps ->
  gocall (S n) f args h =
  fin n fn (plug n [] (run_block (EX n) None b (mkMs [params ps args []] [] h))).
Proof.
  intros H H0 <- <-. unfold gocall. cbn [call_func]. rewrite H. unfold run. rewrite H0. cbn [x_map plug].
  unfold xret. cbn [mHeap].
  destruct (run_block _ _ _ _) as [[fl| | |] s]; cbn [fin]; try reflexivity.
  now destruct (run_defers _ _ _ _ _ _ _).
Qed.

(* With named results. *)
Lemma call_intro_named n f fn args h rs b ps :
  find_func prog f = Some fn -> fbody fn = b -> fparams fn = ps ->
  x_map (fun p => xdo v <- EV n (snd p) ;; xret (fst p, v)) (fresults fn) (mkMs [] [] h)
  = (Ok rs, mkMs [] [] h) ->
  gocall (S n) f args h =
  fin n fn (plug n [] (run_block (EX n) None b (mkMs [params ps args rs] [] h))).
Proof.
  intros H <- <- H0. unfold gocall. cbn [call_func]. rewrite H. unfold run.
  change (call_func prog n) with (gocall n). rewrite H0. cbn [plug].
  cbn [mHeap].
  destruct (run_block _ _ _ _) as [[fl| | |] s]; cbn [fin]; try reflexivity.
  now destruct (run_defers _ _ _ _ _ _ _).
Qed.

(* ---- statements ---- *)

Section Steps.
  Variable n : nat.
  Implicit Types (st : ms) (ks : list kont).

  Lemma plug_nil ks st : plug n ks (run_block (EX n) None [] st) = plug n ks (Ok FNext, st).
  Proof. reflexivity. Qed.

  Lemma plug_step ks s r st st' :
    EX n s st = (Ok FNext, st') ->
    plug n ks (run_block (EX n) None (s :: r) st) = plug n ks (run_block (EX n) None r st').
  Proof. intros H. cbn [run_block]. unfold xbind. now rewrite H. Qed.

  Lemma plug_ret ks es r st vs st' :
    es <> [] ->
    x_map (EV n) es st = (Ok vs, st') ->
    plug n ks (run_block (EX n) None (SReturn es :: r) st)
    = plug n ks (Ok (FRet (Some (spread vs))), st').
  Proof.
    intros H0 H. cbn [run_block]. unfold xbind at 1. destruct es; [congruence|].
    unfold exec, xbind. rewrite H. reflexivity.
  Qed.

  Lemma plug_ret0 ks r st :
    plug n ks (run_block (EX n) None (SReturn [] :: r) st) = plug n ks (Ok (FRet None), st).
  Proof. reflexivity. Qed.

  Lemma plug_continue ks r st :
    plug n ks (run_block (EX n) None (SContinue :: r) st) = plug n ks (Ok FContinue, st).
  Proof. reflexivity. Qed.
  Lemma plug_break ks r st :
    plug n ks (run_block (EX n) None (SBreak :: r) st) = plug n ks (Ok FBreak, st).
  Proof. reflexivity. Qed.

  (* A statement whose execution is unfolded. *)
  Lemma plug_exec ks s r st p :
    EX n s st = p ->
    plug n ks (run_block (EX n) None (s :: r) st) = plug n (KSeq r :: ks) p.
  Proof.
    intros H. cbn [run_block plug kstep]. unfold xbind. rewrite H.
    now destruct p as [[[]| | |] s'].
  Qed.

  Lemma plug_if ks init c t e r st st1 st2 b fl :
    run_block (EX n) None init (push [] st) = (Ok fl, st1) ->
    EV n c st1 = (Ok (VBool b), st2) ->
    plug n ks (run_block (EX n) None (SIf init c t e :: r) st)
    = plug n (KPop :: KPop :: KSeq r :: ks)
        (run_block (EX n) None (if b then t else e) (push [] st2)).
  Proof.
    intros H1 H2. erewrite plug_exec; [|reflexivity].
    cbn [plug kstep].
    assert (E : EX n (SIf init c t e) st
            = (fst (run_block (EX n) None (if b then t else e) (push [] st2)),
               pop (pop (snd (run_block (EX n) None (if b then t else e) (push [] st2))))));
      [|now rewrite E].
    change (EX n (SIf init c t e) st) with
      (let (r, s') := (xdo _ <- run_block (EX n) None init ;;
        xdo v <- EV n c ;; xdo b <- xlift (v_bool v) ;;
        x_scope [] (run_block (EX n) None (if b then t else e))) (push [] st) in (r, pop s')).
    unfold xbind. rewrite H1, H2. unfold xlift. cbn [v_bool]. unfold x_scope.
    fold (push [] st2). clear H1 H2.
    destruct (run_block _ _ _ _) as [rr s']. reflexivity.
  Qed.

  (* A block. *)
  Lemma plug_seq_next ks r st : plug n (KSeq r :: ks) (Ok FNext, st)
                                = plug n ks (run_block (EX n) None r st).
  Proof. reflexivity. Qed.
  Lemma plug_seq_ret ks r st vs : plug n (KSeq r :: ks) (Ok (FRet vs), st)
                                  = plug n ks (Ok (FRet vs), st).
  Proof. reflexivity. Qed.
  Lemma plug_seq_break ks r st : plug n (KSeq r :: ks) (Ok FBreak, st) = plug n ks (Ok FBreak, st).
  Proof. reflexivity. Qed.
  Lemma plug_seq_continue ks r st :
    plug n (KSeq r :: ks) (Ok FContinue, st) = plug n ks (Ok FContinue, st).
  Proof. reflexivity. Qed.
  Lemma plug_seq_panic ks r st : plug n (KSeq r :: ks) (Panic, st) = plug n ks (Panic, st).
  Proof. reflexivity. Qed.
  Lemma plug_pop ks fl f env d h :
    plug n (KPop :: ks) (fl, mkMs (f :: env) d h) = plug n ks (fl, mkMs env d h).
  Proof. reflexivity. Qed.

  (* x = e *)
  Lemma ex_assign l e st v st1 st2 :
    EV n e st = (Ok v, st1) ->
    x_assign (EV n) l v st1 = (Ok tt, st2) ->
    EX n (SAssign [l] [e]) st = (Ok FNext, st2).
  Proof.
    intros H1 H2. cbn [exec x_map]. unfold xbind. rewrite H1. unfold xret.
    cbn [assign_all]. unfold xbind. now rewrite H2.
  Qed.

  (* x, y = e *)
  Lemma ex_assign2 l1 l2 e st v1 v2 st1 st2 st3 :
    EV n e st = (Ok (VTup [v1; v2]), st1) ->
    x_assign (EV n) l1 v1 st1 = (Ok tt, st2) ->
    x_assign (EV n) l2 v2 st2 = (Ok tt, st3) ->
    EX n (SAssign [l1; l2] [e]) st = (Ok FNext, st3).
  Proof.
    intros H1 H2 H3. cbn [exec x_map]. unfold xbind. rewrite H1. unfold xret.
    cbn [spread assign_all]. unfold xbind. rewrite H2. now rewrite H3.
  Qed.
  Lemma ex_assign3 l1 l2 l3 e st v1 v2 v3 st1 st2 st3 st4 :
    EV n e st = (Ok (VTup [v1; v2; v3]), st1) ->
    x_assign (EV n) l1 v1 st1 = (Ok tt, st2) ->
    x_assign (EV n) l2 v2 st2 = (Ok tt, st3) ->
    x_assign (EV n) l3 v3 st3 = (Ok tt, st4) ->
    EX n (SAssign [l1; l2; l3] [e]) st = (Ok FNext, st4).
  Proof.
    intros H1 H2 H3 H4. cbn [exec x_map]. unfold xbind. rewrite H1. unfold xret.
    cbn [spread assign_all]. unfold xbind. rewrite H2, H3. now rewrite H4.
  Qed.
  (* x, y = e, f *)
  Lemma ex_assign22 l1 l2 e1 e2 st v1 v2 st1 st1' st2 st3 :
    EV n e1 st = (Ok v1, st1) -> EV n e2 st1 = (Ok v2, st1') ->
    x_assign (EV n) l1 v1 st1' = (Ok tt, st2) ->
    x_assign (EV n) l2 v2 st2 = (Ok tt, st3) ->
    EX n (SAssign [l1; l2] [e1; e2]) st = (Ok FNext, st3).
  Proof.
    intros H1 H1' H2 H3. cbn [exec x_map]. unfold xbind. rewrite H1, H1'. unfold xret.
    cbn [spread assign_all]. unfold xbind.
    replace (match v1 with VTup _ => [v1; v2] | _ => [v1; v2] end) with [v1; v2]
      by now destruct v1.
    rewrite H2. now rewrite H3.
  Qed.
  Lemma ex_assign33 l1 l2 l3 e1 e2 e3 st v1 v2 v3 st1 st1' st1'' st2 st3 st4 :
    EV n e1 st = (Ok v1, st1) -> EV n e2 st1 = (Ok v2, st1') ->
    EV n e3 st1' = (Ok v3, st1'') ->
    x_assign (EV n) l1 v1 st1'' = (Ok tt, st2) ->
    x_assign (EV n) l2 v2 st2 = (Ok tt, st3) ->
    x_assign (EV n) l3 v3 st3 = (Ok tt, st4) ->
    EX n (SAssign [l1; l2; l3] [e1; e2; e3]) st = (Ok FNext, st4).
  Proof.
    intros H1 H1' H1'' H2 H3 H4. cbn [exec x_map]. unfold xbind.
    rewrite H1, H1', H1''. unfold xret. cbn [spread assign_all]. unfold xbind.
    replace (match v1 with VTup _ => [v1; v2; v3] | _ => [v1; v2; v3] end)
      with [v1; v2; v3] by now destruct v1.
    rewrite H2, H3. now rewrite H4.
  Qed.

  Lemma ex_expr e st v st1 : EV n e st = (Ok v, st1) -> EX n (SExpr e) st = (Ok FNext, st1).
  Proof. intros H. cbn [exec]. unfold xbind. now rewrite H. Qed.

  Lemma ex_expr_panic e st st1 : EV n e st = (Panic, st1) -> EX n (SExpr e) st = (Panic, st1).
  Proof. intros H. cbn [exec]. unfold xbind. now rewrite H. Qed.

  Lemma ex_assign_panic l e st st1 :
    EV n e st = (Panic, st1) -> EX n (SAssign [l] [e]) st = (Panic, st1).
  Proof. intros H. cbn [exec x_map]. unfold xbind. now rewrite H. Qed.

  (* left sides *)
  Lemma as_new x v f env d h :
    x_assign (EV n) (LNew x) v (mkMs (f :: env) d h) = (Ok tt, mkMs (((x, v) :: f) :: env) d h).
  Proof. reflexivity. Qed.
  Lemma as_var x v env d h env' :
    eupdate x v env = Some env' ->
    x_assign (EV n) (LVar x) v (mkMs env d h) = (Ok tt, mkMs env' d h).
  Proof. intros H. cbn [x_assign]. unfold x_set. cbn [mEnv]. now rewrite H. Qed.
  Lemma as_blank v st : x_assign (EV n) LBlank v st = (Ok tt, st).
  Proof. reflexivity. Qed.
  Lemma as_sel l f w st st1 st2 v v' :
    x_read (EV n) l st = (Ok v, st1) ->
    v_set_sel v f w = Ok v' ->
    x_assign (EV n) l v' st1 = (Ok tt, st2) ->
    x_assign (EV n) (LSel l f) w st = (Ok tt, st2).
  Proof.
    intros H1 H2 H3. cbn [x_assign]. unfold xbind. rewrite H1. unfold xlift.
    rewrite H2. now rewrite H3.
  Qed.
  Lemma as_idx l i w st st1 st2 st3 v v' j :
    EV n i st = (Ok j, st1) ->
    x_read (EV n) l st1 = (Ok v, st2) ->
    v_set_index v j w = Ok v' ->
    x_assign (EV n) l v' st2 = (Ok tt, st3) ->
    x_assign (EV n) (LIdx l i) w st = (Ok tt, st3).
  Proof.
    intros H1 H2 H3 H4. cbn [x_assign]. unfold xbind. rewrite H1, H2. unfold xlift.
    rewrite H3. now rewrite H4.
  Qed.
  Lemma rd_var x env d h v :
    elookup x env = Some v ->
    x_read (EV n) (LVar x) (mkMs env d h) = (Ok v, mkMs env d h).
  Proof. intros H. cbn. unfold x_get. cbn [mEnv]. now rewrite H. Qed.
  Lemma rd_sel l f st st1 v w :
    x_read (EV n) l st = (Ok v, st1) -> v_sel v f = Ok w ->
    x_read (EV n) (LSel l f) st = (Ok w, st1).
  Proof. intros H1 H2. cbn. unfold xbind. rewrite H1. unfold xlift. now rewrite H2. Qed.
  Lemma ex_delete l e st st1 st2 st3 k m :
    EV n e st = (Ok k, st1) -> x_read (EV n) l st1 = (Ok (VMap m), st2) ->
    x_assign (EV n) l (VMap (filter (fun p => negb (veq (fst p) k)) m)) st2 = (Ok tt, st3) ->
    EX n (SDelete l e) st = (Ok FNext, st3).
  Proof. intros H1 H2 H3. cbn [exec]. unfold xbind. now rewrite H1, H2, H3. Qed.
  Lemma rd_idx l i st st1 st2 v w j :
    x_read (EV n) l st = (Ok v, st1) -> EV n i st1 = (Ok j, st2) -> v_index v j = Ok w ->
    x_read (EV n) (LIdx l i) st = (Ok w, st2).
  Proof. intros H1 H2 H3. cbn. unfold xbind. rewrite H1, H2. unfold xlift. now rewrite H3. Qed.

  (* ---- expressions ---- *)

  Lemma ev_int z st : EV n (XInt z) st = (Ok (VInt z), st).
  Proof. reflexivity. Qed.
  Lemma ev_bool z st : EV n (XBool z) st = (Ok (VBool z), st).
  Proof. reflexivity. Qed.
  Lemma ev_str z st : EV n (XStr z) st = (Ok (VStr z), st).
  Proof. reflexivity. Qed.
  Lemma ev_nil st : EV n XNil st = (Ok VNil, st).
  Proof. reflexivity. Qed.
  Lemma ev_map st : EV n XMap st = (Ok (VMap []), st).
  Proof. reflexivity. Qed.
  Lemma ev_var x env d h v :
    elookup x env = Some v -> EV n (XVar x) (mkMs env d h) = (Ok v, mkMs env d h).
  Proof. intros H. cbn. unfold x_get. cbn [mEnv]. now rewrite H. Qed.
  Lemma ev_glob x st v :
    global_of prog x = Some v -> EV n (XGlob x) st = (Ok v, st).
  Proof. intros H. cbn [eval]. unfold xlift. now rewrite H. Qed.
  Lemma ev_sel e f st st1 v w :
    EV n e st = (Ok v, st1) -> v_sel v f = Ok w -> EV n (XSel e f) st = (Ok w, st1).
  Proof. intros H1 H2. cbn [eval]. unfold xbind. rewrite H1. unfold xlift. now rewrite H2. Qed.
  Lemma ev_idx e i st st1 st2 v w j :
    EV n e st = (Ok v, st1) -> EV n i st1 = (Ok j, st2) -> v_index v j = Ok w ->
    EV n (XIdx e i) st = (Ok w, st2).
  Proof.
    intros H1 H2 H3. cbn [eval]. unfold xbind. rewrite H1, H2. unfold xlift. now rewrite H3.
  Qed.
  Lemma ev_idx_panic e i st st1 st2 v j :
    EV n e st = (Ok v, st1) -> EV n i st1 = (Ok j, st2) -> v_index v j = Panic ->
    EV n (XIdx e i) st = (Panic, st2).
  Proof.
    intros H1 H2 H3. cbn [eval]. unfold xbind. rewrite H1, H2. unfold xlift. now rewrite H3.
  Qed.
  Lemma ev_idx2 e i st st1 st2 v w j :
    EV n e st = (Ok v, st1) -> EV n i st1 = (Ok j, st2) -> v_index2 v j = Ok w ->
    EV n (XIdx2 e i) st = (Ok w, st2).
  Proof.
    intros H1 H2 H3. cbn [eval]. unfold xbind. rewrite H1, H2. unfold xlift. now rewrite H3.
  Qed.
  Lemma ev_neg e st st1 z :
    EV n e st = (Ok (VInt z), st1) -> EV n (XNeg e) st = (Ok (VInt (- z)), st1).
  Proof. intros H1. cbn [eval]. unfold xbind. now rewrite H1. Qed.
  Lemma ev_not e st st1 b :
    EV n e st = (Ok (VBool b), st1) -> EV n (XNot e) st = (Ok (VBool (negb b)), st1).
  Proof. intros H1. cbn [eval]. unfold xbind. now rewrite H1. Qed.
  Lemma ev_and_f a b st st1 :
    EV n a st = (Ok (VBool false), st1) -> EV n (XBin OAnd a b) st = (Ok (VBool false), st1).
  Proof. intros H1. cbn [eval]. unfold xbind. now rewrite H1. Qed.
  Lemma ev_and_t a b st st1 r :
    EV n a st = (Ok (VBool true), st1) -> EV n b st1 = r -> EV n (XBin OAnd a b) st = r.
  Proof. intros H1 H2. cbn [eval]. unfold xbind. now rewrite H1. Qed.
  Lemma ev_or_t a b st st1 :
    EV n a st = (Ok (VBool true), st1) -> EV n (XBin OOr a b) st = (Ok (VBool true), st1).
  Proof. intros H1. cbn [eval]. unfold xbind. now rewrite H1. Qed.
  Lemma ev_or_f a b st st1 r :
    EV n a st = (Ok (VBool false), st1) -> EV n b st1 = r -> EV n (XBin OOr a b) st = r.
  Proof. intros H1 H2. cbn [eval]. unfold xbind. now rewrite H1. Qed.
  (* operands without effects *)
  Lemma ev_and a b st x y :
    EV n a st = (Ok (VBool x), st) -> EV n b st = (Ok (VBool y), st) ->
    EV n (XBin OAnd a b) st = (Ok (VBool (x && y)), st).
  Proof. intros H1 H2. cbn [eval]. unfold xbind. rewrite H1. destruct x; [exact H2|reflexivity]. Qed.
  Lemma ev_or a b st x y :
    EV n a st = (Ok (VBool x), st) -> EV n b st = (Ok (VBool y), st) ->
    EV n (XBin OOr a b) st = (Ok (VBool (x || y)), st).
  Proof. intros H1 H2. cbn [eval]. unfold xbind. rewrite H1. destruct x; [reflexivity|exact H2]. Qed.
  Lemma ev_bin o a b st st1 st2 x y z :
    o <> OAnd -> o <> OOr ->
    EV n a st = (Ok x, st1) -> EV n b st1 = (Ok y, st2) -> v_bin o x y = Ok z ->
    EV n (XBin o a b) st = (Ok z, st2).
  Proof.
    intros H H0 H1 H2 H3.
    destruct o; try congruence; cbn [eval]; unfold xbind; rewrite H1, H2; unfold xlift;
      now rewrite H3.
  Qed.
  Lemma ev_lst es st st1 vs :
    x_map (EV n) es st = (Ok vs, st1) -> EV n (XLst es) st = (Ok (VLst vs), st1).
  Proof. intros H. cbn [eval]. unfold xbind. now rewrite H. Qed.
  Lemma ev_stc t fs st st1 vs :
    x_map (fun p => xdo v <- EV n (snd p) ;; xret (fst p, v)) fs st = (Ok vs, st1) ->
    EV n (XStc t fs) st = (Ok (VStc t vs), st1).
  Proof. intros H. cbn [eval]. unfold xbind at 1. now rewrite H. Qed.
  Lemma ev_len e st st1 v w :
    EV n e st = (Ok v, st1) -> v_len v = Ok w -> EV n (XLen e) st = (Ok w, st1).
  Proof. intros H1 H2. cbn [eval]. unfold xbind. rewrite H1. unfold xlift. now rewrite H2. Qed.
  Lemma ev_make z m st st1 st2 v k w :
    EV n z st = (Ok v, st1) -> EV n m st1 = (Ok k, st2) -> v_make v k = Ok w ->
    EV n (XMake z m) st = (Ok w, st2).
  Proof.
    intros H1 H2 H3. cbn [eval]. unfold xbind. rewrite H1, H2. unfold xlift. now rewrite H3.
  Qed.
  Lemma ev_app e es st st1 st2 l vs :
    EV n e st = (Ok (VLst l), st1) -> x_map (EV n) es st1 = (Ok vs, st2) ->
    EV n (XApp e es) st = (Ok (VLst (l ++ vs)), st2).
  Proof. intros H1 H2. cbn [eval]. unfold xbind. rewrite H1, H2. reflexivity. Qed.
  Lemma ev_apps e e' st st1 st2 l l' :
    EV n e st = (Ok (VLst l), st1) -> EV n e' st1 = (Ok (VLst l'), st2) ->
    EV n (XAppS e e') st = (Ok (VLst (l ++ l')), st2).
  Proof. intros H1 H2. cbn [eval]. unfold xbind. rewrite H1, H2. reflexivity. Qed.
  Lemma ev_call f es st st1 vs rs w h' :
    x_map (EV n) es st = (Ok vs, st1) -> gocall n f vs (mHeap st1) = (Ok rs, h') ->
    one rs = w ->
    EV n (XCall f es) st = (Ok w, mkMs (mEnv st1) (mDefers st1) h').
  Proof.
    intros H1 H2 <-. cbn [eval]. unfold xbind. rewrite H1. unfold x_call. now rewrite H2.
  Qed.
  Lemma ev_prim f es st st1 vs w :
    x_map (EV n) es st = (Ok vs, st1) -> prim f vs = Ok w ->
    EV n (XPrim f es) st = (Ok w, st1).
  Proof. intros H1 H2. cbn [eval]. unfold xbind. rewrite H1. unfold xlift. now rewrite H2. Qed.
  Lemma ev_dyn f es st st1 st2 g vs w :
    EV n f st = (Ok g, st1) -> x_map (EV n) es st1 = (Ok vs, st2) -> v_dyn g vs = Ok w ->
    EV n (XDyn f es) st = (Ok w, st2).
  Proof.
    intros H1 H2 H3. cbn [eval]. unfold xbind. rewrite H1, H2. unfold xlift. now rewrite H3.
  Qed.
  Lemma ev_meth r m es st st1 st2 st3 rv vs w :
    EV n r st = (Ok rv, st1) -> x_map (EV n) es st1 = (Ok vs, st2) ->
    XM n r m rv vs st2 = (w, st3) ->
    EV n (XMeth r m es) st = (w, st3).
  Proof. intros H1 H2 H3. cbn [eval]. unfold xbind. now rewrite H1, H2. Qed.
  Lemma ev_slc e lo hi st st1 st2 st3 v a b w :
    EV n e st = (Ok v, st1) ->
    match lo with None => xret None | Some x => xdo w <- EV n x ;; xret (Some w) end st1
    = (Ok a, st2) ->
    match hi with None => xret None | Some x => xdo w <- EV n x ;; xret (Some w) end st2
    = (Ok b, st3) ->
    v_slice v a b = Ok w ->
    EV n (XSlc e lo hi) st = (Ok w, st3).
  Proof.
    intros H1 H2 H3 H4. cbn [eval]. unfold xbind at 1. rewrite H1.
    unfold xbind at 1. rewrite H2. unfold xbind at 1. rewrite H3. unfold xlift. now rewrite H4.
  Qed.
  Lemma ev_slc_opt x st st1 w :
    EV n x st = (Ok w, st1) ->
    (xdo w <- EV n x ;; xret (Some w)) st = (Ok (Some w), st1).
  Proof. intros H. unfold xbind. now rewrite H. Qed.

  Lemma xm_nil st : x_map (EV n) [] st = (Ok [], st).
  Proof. reflexivity. Qed.
  Lemma xm_cons e es st st1 st2 v vs :
    EV n e st = (Ok v, st1) -> x_map (EV n) es st1 = (Ok vs, st2) ->
    x_map (EV n) (e :: es) st = (Ok (v :: vs), st2).
  Proof. intros H1 H2. cbn [x_map]. unfold xbind. now rewrite H1, H2. Qed.
  Lemma xf_nil st :
    x_map (fun p : string * expr => xdo v <- EV n (snd p) ;; xret (fst p, v)) [] st = (Ok [], st).
  Proof. reflexivity. Qed.
  Lemma xf_cons f e es st st1 st2 v vs :
    EV n e st = (Ok v, st1) ->
    x_map (fun p : string * expr => xdo v <- EV n (snd p) ;; xret (fst p, v)) es st1 = (Ok vs, st2) ->
    x_map (fun p : string * expr => xdo v <- EV n (snd p) ;; xret (fst p, v)) ((f, e) :: es) st
    = (Ok ((f, v) :: vs), st2).
  Proof.
    intros H1 H2. cbn [x_map fst snd]. unfold xbind at 1. unfold xbind at 1. rewrite H1.
    unfold xret at 1. unfold xbind at 1. now rewrite H2.
  Qed.

  (* panics on the way *)
  Lemma ev_sel_panic e f st st1 :
    EV n e st = (Panic, st1) -> EV n (XSel e f) st = (Panic, st1).
  Proof. intros H1. cbn [eval]. unfold xbind. now rewrite H1. Qed.
  Lemma ev_meth_panic r m es st st1 st2 rv :
    EV n r st = (Ok rv, st1) -> x_map (EV n) es st1 = (Panic, st2) ->
    EV n (XMeth r m es) st = (Panic, st2).
  Proof. intros H1 H2. cbn [eval]. unfold xbind. now rewrite H1, H2. Qed.
  Lemma ev_call_panic f es st st1 vs h' :
    x_map (EV n) es st = (Ok vs, st1) -> gocall n f vs (mHeap st1) = (Panic, h') ->
    EV n (XCall f es) st = (Panic, mkMs (mEnv st1) (mDefers st1) h').
  Proof. intros H1 H2. cbn [eval]. unfold xbind. rewrite H1. unfold x_call. now rewrite H2. Qed.
  Lemma xm_here_panic e es st st1 :
    EV n e st = (Panic, st1) -> x_map (EV n) (e :: es) st = (Panic, st1).
  Proof. intros H1. cbn [x_map]. unfold xbind. now rewrite H1. Qed.
  Lemma xm_next_panic e es st st1 st2 v :
    EV n e st = (Ok v, st1) -> x_map (EV n) es st1 = (Panic, st2) ->
    x_map (EV n) (e :: es) st = (Panic, st2).
  Proof. intros H1 H2. cbn [x_map]. unfold xbind. now rewrite H1, H2. Qed.
  Lemma ex_assign2_panic l1 l2 e st st1 :
    EV n e st = (Panic, st1) -> EX n (SAssign [l1; l2] [e]) st = (Panic, st1).
  Proof. intros H. cbn [exec x_map]. unfold xbind. now rewrite H. Qed.
  Lemma plug_panic ks s r st st' :
    EX n s st = (Panic, st') ->
    plug n ks (run_block (EX n) None (s :: r) st) = plug n ks (Panic, st').
  Proof. intros H. cbn [run_block]. unfold xbind. now rewrite H. Qed.

  (* ---- methods ---- *)

  (* of a value *)
  Lemma xm_val t m fs f r rv args env d h vs w h' :
    rv = VStc t fs -> dot t m = f -> kind_of prog f = Some false ->
    gocall n f (rv :: args) h = (Ok vs, h') ->
    one vs = w ->
    XM n r m rv args (mkMs env d h) = (Ok w, mkMs env d h').
  Proof.
    intros -> <- H1 H2 <-. unfold x_method, method, own_method. rewrite H1. unfold xbind, x_call.
    cbn [mHeap mEnv mDefers]. now rewrite H2.
  Qed.
  (* with a pointer receiver held in a variable *)
  Lemma xm_ptr t m fs f r rv args env d h v vs w h' st' :
    rv = VStc t fs -> dot t m = f -> kind_of prog f = Some true ->
    gocall n f (rv :: args) h = (Ok (v :: vs), h') ->
    write_back r v (mkMs env d h') = (Ok tt, st') ->
    one vs = w ->
    XM n r m rv args (mkMs env d h) = (Ok w, st').
  Proof.
    intros -> <- H1 H2 H3 <-. unfold x_method, method, own_method. rewrite H1. unfold xbind, x_call.
    cbn [mHeap mEnv mDefers]. rewrite H2. unfold xret. cbn [fst snd]. now rewrite H3.
  Qed.
  (* of a type from outside the repository *)
  Lemma xm_prim t m fs f r rv args env d h vs w :
    rv = VStc t fs -> dot t m = f -> kind_of prog f = None ->
    prim_meth t m fs args = Some (Ok (vs, None)) ->
    one vs = w ->
    XM n r m rv args (mkMs env d h) = (Ok w, mkMs env d h).
  Proof.
    intros -> <- H1 H2 <-. unfold x_method, method, own_method. rewrite H1, H2. reflexivity.
  Qed.
  Lemma xm_prim_ptr t m fs f r rv args env d h v vs w st' :
    rv = VStc t fs -> dot t m = f -> kind_of prog f = None ->
    prim_meth t m fs args = Some (Ok (vs, Some v)) ->
    write_back r v (mkMs env d h) = (Ok tt, st') ->
    one vs = w ->
    XM n r m rv args (mkMs env d h) = (Ok w, st').
  Proof.
    intros -> <- H1 H2 H3 <-. unfold x_method, method, own_method. rewrite H1, H2.
    cbn [option_map]. unfold xbind, xlift. cbn [fst snd]. now rewrite H3.
  Qed.
End Steps.

(* ---- loops ---- *)

(* One after another; the state is what a loop changes. *)
Lemma range_fold {S A} (mk : S -> ms) (inj : A -> val) (step : Z -> A -> S -> S) body :
  (forall i a s, exists fl, (fl = FNext \/ fl = FContinue) /\
                 body (VInt i, inj a) (mk s) = (Ok fl, mk (step i a s))) ->
  forall l i s,
    range_loop body (indexed i (map inj l)) (mk s)
    = (Ok FNext, mk (fold_left (fun s p => step (fst p) (snd p) s) (mapi_from i pair l) s)).
Proof.
  intros Hb. induction l as [|a l IH]; intros i s; cbn; [reflexivity|].
  unfold xbind. destruct (Hb i a s) as (fl & [-> | ->] & ->); apply IH.
Qed.
(* Without looking at the index. *)
Lemma range_fold0 {S A} (mk : S -> ms) (inj : A -> val) (step : A -> S -> S) body :
  (forall i a s, exists fl, (fl = FNext \/ fl = FContinue) /\
                 body (VInt i, inj a) (mk s) = (Ok fl, mk (step a s))) ->
  forall l i s,
    range_loop body (indexed i (map inj l)) (mk s)
    = (Ok FNext, mk (fold_left (fun s a => step a s) l s)).
Proof.
  intros Hb. induction l as [|a l IH]; intros i s; cbn; [reflexivity|].
  unfold xbind. destruct (Hb i a s) as (fl & [-> | ->] & ->); apply IH.
Qed.

(* A loop that may return: the first turn that does so decides. *)
Fixpoint rfind {A B} (f : Z -> A -> option B) (i : Z) (l : list A) : option B :=
  match l with
  | [] => None
  | a :: r => match f i a with Some b => Some b | None => rfind f (i + 1) r end
  end.
Lemma range_find {A} st (inj : A -> val) (f : Z -> A -> option (list val)) body :
  forall l i,
  (forall j a, (i <= j)%Z -> nth_error l (Z.to_nat (j - i)) = Some a ->
   match f j a with
   | Some r => body (VInt j, inj a) st = (Ok (FRet (Some r)), st)
   | None => exists fl, (fl = FNext \/ fl = FContinue) /\
                 body (VInt j, inj a) st = (Ok fl, st)
   end) ->
    range_loop body (indexed i (map inj l)) st
    = (Ok (match rfind f i l with Some r => FRet (Some r) | None => FNext end), st).
Proof.
  induction l as [|a l IH]; intros i Hb; cbn; [reflexivity|].
  unfold xbind. specialize (Hb i a) as Hi.
  replace (i - i) with 0 in Hi by lia. specialize (Hi ltac:(lia) eq_refl).
  destruct (f i a) as [r|].
  - now rewrite Hi.
  - destruct Hi as (fl & Hfl & ->).
    assert (E : range_loop body (indexed (i + 1) (map inj l)) st
            = (Ok (match rfind f (i + 1) l with Some r => FRet (Some r) | None => FNext end), st)).
    { apply IH. intros j b Hj Hn. apply Hb; [lia|].
      replace (Z.to_nat (j - i)) with (S (Z.to_nat (j - (i + 1)))) by lia. exact Hn. }
    destruct Hfl as [-> | ->]; exact E.
Qed.

Lemma loop_ext cond body body' post :
  (forall s, body s = body' s) ->
  forall fuel s, loop cond body post fuel s = loop cond body' post fuel s.
Proof.
  intros H. induction fuel as [|fuel IH]; intros s; [reflexivity|]. cbn [loop]. unfold xbind.
  destruct (cond s) as [[[]| | |] s1]; try reflexivity. rewrite H.
  destruct (body' s1) as [[[]| | |] s2]; try reflexivity;
    destruct (post s2) as [[| | |] s3]; try reflexivity; apply IH.
Qed.

(* for i := lo; i < hi; i++ *)
Lemma loop_up {S} (mk : Z -> S -> ms) (step : Z -> S -> S) hi cond body post :
  (forall i s, cond (mk i s) = (Ok (i <? hi), mk i s)) ->
  forall lo,
  (forall i s, lo <= i < hi -> exists fl, (fl = FNext \/ fl = FContinue) /\
      body (mk i s) = (Ok fl, mk i (step i s))) ->
  (forall i s, post (mk i s) = (Ok FNext, mk (i + 1) s)) ->
  forall fuel s,
    (Z.to_nat (hi - lo) < fuel)%nat ->
    loop cond body post fuel (mk lo s)
    = (Ok FNext, mk (Z.max lo hi) (fold_left (fun s i => step i s) (zrange lo hi) s)).
Proof.
  intros Hc lo Hb Hp fuel. revert lo Hb.
  induction fuel as [|fuel IH]; intros lo Hb s Hf; [lia|].
  cbn [loop]. unfold xbind at 1. rewrite Hc.
  destruct (Z.ltb_spec lo hi) as [Hl|Hl].
  - unfold xbind at 1. destruct (Hb lo s ltac:(lia)) as (fl & Hfl & ->).
    assert (E : (xdo _ <- post ;; loop cond body post fuel) (mk lo (step lo s))
                = (Ok FNext, mk (Z.max lo hi) (fold_left (fun s i => step i s) (zrange lo hi) s))).
    { unfold xbind. rewrite Hp. rewrite IH; [|intros i s0 Hi; apply Hb; lia|lia].
      replace (Z.max (lo + 1) hi) with (Z.max lo hi) by lia.
      do 2 f_equal. unfold zrange.
      replace (Z.to_nat (hi - lo)) with (Datatypes.S (Z.to_nat (hi - (lo + 1)))) by lia.
      cbn [seq map fold_left]. replace (lo + Z.of_nat 0) with lo by lia.
      rewrite <- seq_shift, map_map.
      f_equal. apply map_ext. intros a. lia. }
    destruct Hfl as [-> | ->]; exact E.
  - unfold xret. unfold zrange. replace (Z.to_nat (hi - lo)) with 0%nat by lia.
    cbn [seq map fold_left]. now replace (Z.max lo hi) with lo by lia.
Qed.

(* for i := lo; i < hi; i++, where a turn may return *)
Fixpoint zfind {B} (f : Z -> option B) (l : list Z) : option B :=
  match l with
  | [] => None
  | i :: r => match f i with Some b => Some b | None => zfind f r end
  end.

(* for i := hi; i >= 0; i-- *)
Lemma loop_down {S} (mk : Z -> S -> ms) (step : Z -> S -> S) cond body post :
  (forall i s, cond (mk i s) = (Ok (0 <=? i), mk i s)) ->
  forall hi,
  (forall i s, 0 <= i <= hi -> exists fl, (fl = FNext \/ fl = FContinue) /\
      body (mk i s) = (Ok fl, mk i (step i s))) ->
  (forall i s, post (mk i s) = (Ok FNext, mk (i - 1) s)) ->
  forall fuel s,
    (Z.to_nat (hi + 1) < fuel)%nat ->
    loop cond body post fuel (mk hi s)
    = (Ok FNext, mk (Z.min hi (-1)) (fold_left (fun s i => step i s) (rev (zrange 0 (hi + 1))) s)).
Proof.
  intros Hc hi Hb Hp fuel. revert hi Hb.
  induction fuel as [|fuel IH]; intros hi Hb s Hf; [lia|].
  cbn [loop]. unfold xbind at 1. rewrite Hc.
  destruct (Z.leb_spec 0 hi) as [Hl|Hl].
  - unfold xbind at 1. destruct (Hb hi s ltac:(lia)) as (fl & Hfl & ->).
    assert (E : (xdo _ <- post ;; loop cond body post fuel) (mk hi (step hi s))
                = (Ok FNext, mk (Z.min hi (-1))
                     (fold_left (fun s i => step i s) (rev (zrange 0 (hi + 1))) s))).
    { unfold xbind. rewrite Hp. rewrite IH; [|intros i s0 Hi; apply Hb; lia|lia].
      replace (Z.min (hi - 1) (-1)) with (Z.min hi (-1)) by lia.
      do 2 f_equal. unfold zrange.
      replace (Z.to_nat (hi + 1 - 0)) with (Datatypes.S (Z.to_nat (hi - 1 + 1 - 0))) by lia.
      rewrite seq_S, map_app, rev_app_distr. cbn [map rev app fold_left].
      now replace (0 + Z.of_nat (0 + Z.to_nat (hi - 1 + 1 - 0))) with hi by lia. }
    destruct Hfl as [-> | ->]; exact E.
  - unfold xret. unfold zrange. replace (Z.to_nat (hi + 1 - 0)) with 0%nat by lia.
    cbn [seq map rev fold_left]. now replace (Z.min hi (-1)) with hi by lia.
Qed.

Lemma loop_up_find (mk : Z -> ms) (f : Z -> option (list val)) hi cond body post :
  (forall i, cond (mk i) = (Ok (i <? hi), mk i)) ->
  forall lo,
  (forall i, lo <= i < hi ->
   match f i with
   | Some r => body (mk i) = (Ok (FRet (Some r)), mk i)
   | None => exists fl, (fl = FNext \/ fl = FContinue) /\ body (mk i) = (Ok fl, mk i)
   end) ->
  (forall i, post (mk i) = (Ok FNext, mk (i + 1))) ->
  forall fuel,
    (Z.to_nat (hi - lo) < fuel)%nat ->
    exists i,
    loop cond body post fuel (mk lo)
    = (Ok (match zfind f (zrange lo hi) with Some r => FRet (Some r) | None => FNext end), mk i).
Proof.
  intros Hc lo Hb Hp fuel. revert lo Hb.
  induction fuel as [|fuel IH]; intros lo Hb Hf; [lia|].
  cbn [loop]. unfold xbind at 1. rewrite Hc.
  destruct (Z.ltb_spec lo hi) as [Hl|Hl].
  - unfold xbind at 1. specialize (Hb lo ltac:(lia)) as Hi.
    assert (Ez : zrange lo hi = lo :: zrange (lo + 1) hi).
    { unfold zrange.
      replace (Z.to_nat (hi - lo)) with (Datatypes.S (Z.to_nat (hi - (lo + 1)))) by lia.
      cbn [seq map]. replace (lo + Z.of_nat 0) with lo by lia.
      rewrite <- seq_shift, map_map. f_equal. apply map_ext. intros a. lia. }
    rewrite Ez. cbn [zfind]. destruct (f lo) as [r|].
    + exists lo. now rewrite Hi.
    + destruct Hi as (fl & Hfl & ->).
      destruct (IH (lo + 1)) as [i Ei]; [intros i Hi; apply Hb; lia|lia|].
      exists i. destruct Hfl as [-> | ->]; unfold xbind; rewrite Hp; exact Ei.
  - exists lo. unfold xret. unfold zrange. now replace (Z.to_nat (hi - lo)) with 0%nat by lia.
Qed.

(* Loops that may end early: a turn gives the next state or the end. *)
Fixpoint rrun {S A E} (step : Z -> A -> S -> S + E) (i : Z) (l : list A) (s : S) : S + E :=
  match l with
  | [] => inl s
  | a :: r => match step i a s with
              | inl s' => rrun step (i + 1) r s'
              | inr e => inr e
              end
  end.
(* The end goes through a loop unchanged. *)
Definition stops (p : res flow * ms) : Prop :=
  match fst p with Ok FNext | Ok FBreak | Ok FContinue => False | _ => True end.

Lemma range_run {S A} (mk : S -> ms) (inj : A -> val)
    (step : Z -> A -> S -> S + (res flow * ms)) body :
  forall l i s,
  (forall j a s, i <= j -> nth_error l (Z.to_nat (j - i)) = Some a ->
   match step j a s with
   | inl s' => exists fl, (fl = FNext \/ fl = FContinue) /\
                          body (VInt j, inj a) (mk s) = (Ok fl, mk s')
   | inr p => body (VInt j, inj a) (mk s) = p /\ stops p
   end) ->
    range_loop body (indexed i (map inj l)) (mk s)
    = match rrun step i l s with inl s' => (Ok FNext, mk s') | inr p => p end.
Proof.
  induction l as [|a l IH]; intros i s Hb; cbn; [reflexivity|].
  unfold xbind. pose proof (Hb i a s) as Hi.
  replace (i - i) with 0 in Hi by lia. specialize (Hi ltac:(lia) eq_refl).
  destruct (step i a s) as [s'|p].
  - destruct Hi as (fl & Hfl & ->).
    assert (E : range_loop body (indexed (i + 1) (map inj l)) (mk s')
            = match rrun step (i + 1) l s' with inl s' => (Ok FNext, mk s') | inr p => p end).
    { apply IH. intros j b s0 Hj Hn. apply Hb; [lia|].
      replace (Z.to_nat (j - i)) with (Datatypes.S (Z.to_nat (j - (i + 1)))) by lia. exact Hn. }
    destruct Hfl as [-> | ->]; exact E.
  - destruct Hi as [-> Hs]. destruct p as [[[]| | |] s']; cbn in Hs; try easy.
Qed.

(* for i := lo; i < hi; i++ *)
Fixpoint zrun {S E} (step : Z -> S -> S + E) (l : list Z) (s : S) : S + E :=
  match l with
  | [] => inl s
  | i :: r => match step i s with
              | inl s' => zrun step r s'
              | inr e => inr e
              end
  end.
Lemma zrange_cons lo hi : lo < hi -> zrange lo hi = lo :: zrange (lo + 1) hi.
Proof.
  intros H. unfold zrange.
  replace (Z.to_nat (hi - lo)) with (Datatypes.S (Z.to_nat (hi - (lo + 1)))) by lia.
  cbn [seq map]. replace (lo + Z.of_nat 0) with lo by lia.
  rewrite <- seq_shift, map_map. f_equal. apply map_ext. intros a. lia.
Qed.
Lemma zrange_nil lo hi : hi <= lo -> zrange lo hi = [].
Proof. intros H. unfold zrange. now replace (Z.to_nat (hi - lo)) with 0%nat by lia. Qed.

Lemma loop_run {S} (mk : Z -> S -> ms) (step : Z -> S -> S + (res flow * ms)) hi cond body post :
  (forall i s, cond (mk i s) = (Ok (i <? hi), mk i s)) ->
  forall lo,
  (forall i s, lo <= i < hi ->
    match step i s with
    | inl s' => exists fl, (fl = FNext \/ fl = FContinue) /\ body (mk i s) = (Ok fl, mk i s')
    | inr p => body (mk i s) = p /\ stops p
    end) ->
  (forall i s, post (mk i s) = (Ok FNext, mk (i + 1) s)) ->
  forall fuel s,
    (Z.to_nat (hi - lo) < fuel)%nat ->
    loop cond body post fuel (mk lo s)
    = match zrun step (zrange lo hi) s with
      | inl s' => (Ok FNext, mk (Z.max lo hi) s')
      | inr p => p
      end.
Proof.
  intros Hc lo Hb Hp fuel. revert lo Hb.
  induction fuel as [|fuel IH]; intros lo Hb s Hf; [lia|].
  cbn [loop]. unfold xbind at 1. rewrite Hc.
  destruct (Z.ltb_spec lo hi) as [Hl|Hl].
  - unfold xbind at 1. pose proof (Hb lo s ltac:(lia)) as Hi.
    rewrite (zrange_cons lo hi Hl). cbn [zrun]. destruct (step lo s) as [s'|p].
    + destruct Hi as (fl & Hfl & ->).
      assert (E : (xdo _ <- post ;; loop cond body post fuel) (mk lo s')
                = match zrun step (zrange (lo + 1) hi) s' with
                  | inl s' => (Ok FNext, mk (Z.max lo hi) s')
                  | inr p => p
                  end).
      { unfold xbind. rewrite Hp. rewrite IH; [|intros i s0 Hi; apply Hb; lia|lia].
        now replace (Z.max (lo + 1) hi) with (Z.max lo hi) by lia. }
      destruct Hfl as [-> | ->]; exact E.
    + destruct Hi as [-> Hs]. destruct p as [[[]| | |] s']; cbn in Hs; try easy.
  - unfold xret. rewrite zrange_nil by lia. cbn [zrun].
    now replace (Z.max lo hi) with lo by lia.
Qed.

(* ---- whole loops ---- *)

Section Whole.
  Variable n : nat.

  Lemma ex_range0 {S A} (mk : S -> ms) (step : A -> S -> S) (inj : A -> val) k v e body st l s0 :
    EV n e st = (Ok (VLst (map inj l)), mk s0) ->
    (forall i a s, exists fl, (fl = FNext \/ fl = FContinue) /\
       plug n [KPop; KPop] (run_block (EX n) None body
         (push [] (push (bind_name k (VInt i) (bind_name v (inj a) [])) (mk s))))
       = (Ok fl, mk (step a s))) ->
    EX n (SRange k v e body) st = (Ok FNext, mk (fold_left (fun s a => step a s) l s0)).
  Proof.
    intros H1 H2.
    change (EX n (SRange k v e body) st) with
      ((xdo w <- EV n e ;; xdo l <- xlift (v_range w) ;;
        range_loop
          (fun p s => let (r, s') := x_scope [] (run_block (EX n) None body)
                        (push (bind_name k (fst p) (bind_name v (snd p) [])) s) in (r, pop s')) l) st).
    unfold xbind. rewrite H1. unfold xlift. cbn [v_range].
    apply range_fold0. intros i a s. destruct (H2 i a s) as (fl & Hfl & E).
    exists fl. split; [exact Hfl|]. rewrite <- E. cbn [fst snd plug kstep].
    unfold x_scope. fold (push [] (push (bind_name k (VInt i) (bind_name v (inj a) [])) (mk s))).
    destruct (run_block _ _ _ _) as [r s']. reflexivity.
  Qed.

  Lemma ex_range_run {S A} (mk : S -> ms) (step : Z -> A -> S -> S + (res flow * ms))
      (inj : A -> val) k v e body st l s0 :
    EV n e st = (Ok (VLst (map inj l)), mk s0) ->
    (forall i a s, 0 <= i -> nth_error l (Z.to_nat i) = Some a ->
      match step i a s with
      | inl s' => exists fl, (fl = FNext \/ fl = FContinue) /\
       plug n [KPop; KPop] (run_block (EX n) None body
         (push [] (push (bind_name k (VInt i) (bind_name v (inj a) [])) (mk s))))
       = (Ok fl, mk s')
      | inr p =>
       plug n [KPop; KPop] (run_block (EX n) None body
         (push [] (push (bind_name k (VInt i) (bind_name v (inj a) [])) (mk s)))) = p /\ stops p
      end) ->
    EX n (SRange k v e body) st
    = match rrun step 0 l s0 with inl s => (Ok FNext, mk s) | inr p => p end.
  Proof.
    intros H1 H2.
    change (EX n (SRange k v e body) st) with
      ((xdo w <- EV n e ;; xdo l <- xlift (v_range w) ;;
        range_loop
          (fun p s => let (r, s') := x_scope [] (run_block (EX n) None body)
                        (push (bind_name k (fst p) (bind_name v (snd p) [])) s) in (r, pop s')) l) st).
    unfold xbind. rewrite H1. unfold xlift. cbn [v_range].
    apply (range_run mk inj step). intros i a s Hi Hn.
    replace (i - 0) with i in Hn by lia. specialize (H2 i a s Hi Hn).
    revert H2. cbn [fst snd plug kstep].
    unfold x_scope. fold (push [] (push (bind_name k (VInt i) (bind_name v (inj a) [])) (mk s))).
    now destruct (run_block (EX n) None body _) as [r s'].
  Qed.

  Lemma ex_for_run {S} (mk : Z -> S -> ms) (step : Z -> S -> S + (res flow * ms))
      lo hi init c post body st s0 fl0 :
    run_block (EX n) None init (push [] st) = (Ok fl0, mk lo s0) ->
    (forall i s, EV n c (mk i s) = (Ok (VBool (i <? hi)), mk i s)) ->
    (forall i s, lo <= i < hi ->
      match step i s with
      | inl s' => exists fl, (fl = FNext \/ fl = FContinue) /\
         plug n [KPop] (run_block (EX n) None body (push [] (mk i s))) = (Ok fl, mk i s')
      | inr p =>
         plug n [KPop] (run_block (EX n) None body (push [] (mk i s))) = p /\ stops p
      end) ->
    (forall i s, run_block (EX n) None post (mk i s) = (Ok FNext, mk (i + 1) s)) ->
    (Z.to_nat (hi - lo) < n)%nat ->
    EX n (SFor init c post body) st
    = match zrun step (zrange lo hi) s0 with
      | inl s => (Ok FNext, pop (mk (Z.max lo hi) s))
      | inr p => (fst p, pop (snd p))
      end.
  Proof.
    intros H1 H2 H3 H4 H5.
    change (EX n (SFor init c post body) st) with
      (let (r, s') := (xdo _ <- run_block (EX n) None init ;;
           loop (xdo v <- EV n c ;; xlift (v_bool v))
             (fun s => let (r, s') := run_block (EX n) None body (push [] s) in (r, pop s'))
             (run_block (EX n) None post) n) (push [] st) in (r, pop s')).
    unfold xbind at 1. rewrite H1.
    erewrite (loop_run mk step hi); [| | |exact H4|exact H5].
    - destruct (zrun _ _ _) as [|[]]; reflexivity.
    - intros i s. unfold xbind. now rewrite H2.
    - intros i s Hi. specialize (H3 i s Hi). revert H3. cbn [plug kstep].
      now destruct (run_block (EX n) None body _).
  Qed.

  (* over a map *)
  Lemma ex_range_map {S A} (mk : S -> ms) (step : A -> S -> S) (inj : A -> val * val) k v e body st l s0 :
    EV n e st = (Ok (VMap (map inj l)), mk s0) ->
    (forall a s, exists fl, (fl = FNext \/ fl = FContinue) /\
       plug n [KPop; KPop] (run_block (EX n) None body
         (push [] (push (bind_name k (fst (inj a)) (bind_name v (snd (inj a)) [])) (mk s))))
       = (Ok fl, mk (step a s))) ->
    EX n (SRange k v e body) st = (Ok FNext, mk (fold_left (fun s a => step a s) l s0)).
  Proof.
    intros H1 H2.
    change (EX n (SRange k v e body) st) with
      ((xdo w <- EV n e ;; xdo l <- xlift (v_range w) ;;
        range_loop
          (fun p s => let (r, s') := x_scope [] (run_block (EX n) None body)
                        (push (bind_name k (fst p) (bind_name v (snd p) [])) s) in (r, pop s')) l) st).
    unfold xbind. rewrite H1. unfold xlift. cbn [v_range]. clear H1.
    revert s0. induction l as [|a l IH]; intros s0; [reflexivity|].
    cbn [map range_loop fold_left]. unfold xbind.
    destruct (H2 a s0) as (fl & Hfl & E). revert E. cbn [plug kstep].
    unfold x_scope. fold (push [] (push (bind_name k (fst (inj a)) (bind_name v (snd (inj a)) [])) (mk s0))).
    destruct (run_block (EX n) None body _) as [r s'] eqn:Er. cbn [fst snd]. intros E.
    apply pair_equal_spec in E as [-> Es]. rewrite <- (IH (step a s0)), <- Es.
    now destruct Hfl as [-> | ->].
  Qed.

  (* A range whose turns may return. *)
  Lemma ex_range_find {A} (f : Z -> A -> option (list val)) (inj : A -> val) k v e body st st1 l :
    EV n e st = (Ok (VLst (map inj l)), st1) ->
    (forall i a, 0 <= i -> nth_error l (Z.to_nat i) = Some a ->
       plug n [KPop; KPop] (run_block (EX n) None body
         (push [] (push (bind_name k (VInt i) (bind_name v (inj a) [])) st1)))
       = (Ok (match f i a with Some r => FRet (Some r) | None => FNext end), st1)) ->
    EX n (SRange k v e body) st
    = (Ok (match rfind f 0 l with Some r => FRet (Some r) | None => FNext end), st1).
  Proof.
    intros H1 H2.
    change (EX n (SRange k v e body) st) with
      ((xdo w <- EV n e ;; xdo l <- xlift (v_range w) ;;
        range_loop
          (fun p s => let (r, s') := x_scope [] (run_block (EX n) None body)
                        (push (bind_name k (fst p) (bind_name v (snd p) [])) s) in (r, pop s')) l) st).
    unfold xbind. rewrite H1. unfold xlift. cbn [v_range].
    apply (range_find st1 inj f). intros j a Hj Hn. replace (j - 0) with j in Hn by lia.
    specialize (H2 j a Hj Hn). revert H2. cbn [fst snd plug kstep].
    unfold x_scope. fold (push [] (push (bind_name k (VInt j) (bind_name v (inj a) [])) st1)).
    destruct (run_block _ _ _ _) as [r s']. cbn [fst snd].
    intros E. apply pair_equal_spec in E as [-> <-].
    destruct (f j a); [reflexivity|]. exists FNext. split; [now left|reflexivity].
  Qed.

  (* The turns of a range, with an invariant on the list left. *)
  Lemma ex_range_gen {A} (inj : A -> val) k v e body st st1 l :
    EV n e st = (Ok (VLst (map inj l)), st1) ->
    EX n (SRange k v e body) st
    = range_loop
        (fun p s => plug n [KPop; KPop] (run_block (EX n) None body
           (push [] (push (bind_name k (fst p) (bind_name v (snd p) [])) s))))
        (indexed 0 (map inj l)) st1.
  Proof.
    intros H1.
    change (EX n (SRange k v e body) st) with
      ((xdo w <- EV n e ;; xdo l <- xlift (v_range w) ;;
        range_loop
          (fun p s => let (r, s') := x_scope [] (run_block (EX n) None body)
                        (push (bind_name k (fst p) (bind_name v (snd p) [])) s) in (r, pop s')) l) st).
    unfold xbind. rewrite H1. unfold xlift. cbn [v_range]. clear H1.
    generalize (indexed 0 (map inj l)) as l'. intros l'. revert st1.
    induction l' as [|p l' IH]; intros st1; [reflexivity|]. cbn [range_loop].
    unfold xbind. cbn [plug kstep].
    unfold x_scope. fold (push [] (push (bind_name k (fst p) (bind_name v (snd p) [])) st1)).
    destruct (run_block _ _ _ _) as [[[]| | |] s']; cbn [fst snd]; try reflexivity; apply IH.
  Qed.

  Lemma ex_for_up {S} (mk : Z -> S -> ms) (step : Z -> S -> S) lo hi init c post body st s0 fl0 :
    run_block (EX n) None init (push [] st) = (Ok fl0, mk lo s0) ->
    (forall i s, EV n c (mk i s) = (Ok (VBool (i <? hi)), mk i s)) ->
    (forall i s, lo <= i < hi -> exists fl, (fl = FNext \/ fl = FContinue) /\
       plug n [KPop] (run_block (EX n) None body (push [] (mk i s))) = (Ok fl, mk i (step i s))) ->
    (forall i s, run_block (EX n) None post (mk i s) = (Ok FNext, mk (i + 1) s)) ->
    (Z.to_nat (hi - lo) < n)%nat ->
    EX n (SFor init c post body) st
    = (Ok FNext, pop (mk (Z.max lo hi) (fold_left (fun s i => step i s) (zrange lo hi) s0))).
  Proof.
    intros H1 H2 H3 H4 H5.
    change (EX n (SFor init c post body) st) with
      (let (r, s') := (xdo _ <- run_block (EX n) None init ;;
           loop (xdo v <- EV n c ;; xlift (v_bool v))
             (fun s => let (r, s') := run_block (EX n) None body (push [] s) in (r, pop s'))
             (run_block (EX n) None post) n) (push [] st) in (r, pop s')).
    unfold xbind at 1. rewrite H1.
    erewrite (loop_up mk step hi); [reflexivity| | |exact H4|exact H5].
    - intros i s. unfold xbind. now rewrite H2.
    - intros i s Hi. destruct (H3 i s Hi) as (fl & Hfl & E). exists fl. split; [exact Hfl|].
      rewrite <- E. cbn [plug kstep]. now destruct (run_block (EX n) None body _).
  Qed.

  Lemma ex_for_down {S} (mk : Z -> S -> ms) (step : Z -> S -> S) hi init c post body st s0 fl0 :
    run_block (EX n) None init (push [] st) = (Ok fl0, mk hi s0) ->
    (forall i s, EV n c (mk i s) = (Ok (VBool (0 <=? i)), mk i s)) ->
    (forall i s, 0 <= i <= hi -> exists fl, (fl = FNext \/ fl = FContinue) /\
       plug n [KPop] (run_block (EX n) None body (push [] (mk i s))) = (Ok fl, mk i (step i s))) ->
    (forall i s, run_block (EX n) None post (mk i s) = (Ok FNext, mk (i - 1) s)) ->
    (Z.to_nat (hi + 1) < n)%nat ->
    EX n (SFor init c post body) st
    = (Ok FNext, pop (mk (Z.min hi (-1))
                   (fold_left (fun s i => step i s) (rev (zrange 0 (hi + 1))) s0))).
  Proof.
    intros H1 H2 H3 H4 H5.
    change (EX n (SFor init c post body) st) with
      (let (r, s') := (xdo _ <- run_block (EX n) None init ;;
           loop (xdo v <- EV n c ;; xlift (v_bool v))
             (fun s => let (r, s') := run_block (EX n) None body (push [] s) in (r, pop s'))
             (run_block (EX n) None post) n) (push [] st) in (r, pop s')).
    unfold xbind at 1. rewrite H1.
    erewrite (loop_down mk step); [reflexivity| | |exact H4|exact H5].
    - intros i s. unfold xbind. now rewrite H2.
    - intros i s Hi. destruct (H3 i s Hi) as (fl & Hfl & E). exists fl. split; [exact Hfl|].
      rewrite <- E. cbn [plug kstep]. now destruct (run_block (EX n) None body _).
  Qed.

  (* Any loop, its body as a plugged block. *)
  Lemma ex_for_gen init c post body st st1 fl0 :
    run_block (EX n) None init (push [] st) = (Ok fl0, st1) ->
    EX n (SFor init c post body) st
    = (let (r, s') := loop (xdo v <- EV n c ;; xlift (v_bool v))
             (fun s => plug n [KPop] (run_block (EX n) None body (push [] s)))
             (run_block (EX n) None post) n st1 in (r, pop s')).
  Proof.
    intros H1.
    change (EX n (SFor init c post body) st) with
      (let (r, s') := (xdo _ <- run_block (EX n) None init ;;
           loop (xdo v <- EV n c ;; xlift (v_bool v))
             (fun s => let (r, s') := run_block (EX n) None body (push [] s) in (r, pop s'))
             (run_block (EX n) None post) n) (push [] st) in (r, pop s')).
    unfold xbind at 1. rewrite H1.
    erewrite loop_ext; [reflexivity|]. intros s. cbn [plug kstep].
    now destruct (run_block (EX n) None body (push [] s)).
  Qed.

  Lemma blk_nil st : run_block (EX n) None [] st = (Ok FNext, st).
  Proof. reflexivity. Qed.
  Lemma blk_step s r st st' p :
    EX n s st = (Ok FNext, st') -> run_block (EX n) None r st' = p ->
    run_block (EX n) None (s :: r) st = p.
  Proof. intros H1 H2. cbn [run_block]. unfold xbind. now rewrite H1. Qed.

  (* ---- ends of functions ---- *)

  Lemma fin_ret fn vs env h :
    fresults fn = [] -> fptr fn = false ->
    fin n fn (plug n [] (Ok (FRet (Some vs)), mkMs env [] h)) = (Ok vs, h).
  Proof. intros H1 H2. cbn [plug fin]. unfold finish. rewrite H1, H2. reflexivity. Qed.
  Lemma fin_next_ptr fn x r env h v :
    fresults fn = [] -> fptr fn = true -> fparams fn = x :: r -> elookup x env = Some v ->
    fin n fn (plug n [] (Ok FNext, mkMs env [] h)) = (Ok [v], h).
  Proof.
    intros H1 H2 H3 H4. cbn [plug fin]. unfold finish. rewrite H1, H2, H3.
    unfold xbind, xret. cbn [mDefers run_defers]. unfold xret, x_get. cbn [mEnv].
    now rewrite H4.
  Qed.
  Lemma fin_ret0_ptr fn x r env h v :
    fresults fn = [] -> fptr fn = true -> fparams fn = x :: r -> elookup x env = Some v ->
    fin n fn (plug n [] (Ok (FRet None), mkMs env [] h)) = (Ok [v], h).
  Proof.
    intros H1 H2 H3 H4. cbn [plug fin]. unfold finish. rewrite H1, H2, H3.
    unfold xbind, xret. cbn [mDefers run_defers]. unfold xret, x_get. cbn [mEnv].
    now rewrite H4.
  Qed.
  Lemma fin_ret_ptr fn x r env h v vs :
    fresults fn = [] -> fptr fn = true -> fparams fn = x :: r -> elookup x env = Some v ->
    fin n fn (plug n [] (Ok (FRet (Some vs)), mkMs env [] h)) = (Ok (v :: vs), h).
  Proof.
    intros H1 H2 H3 H4. cbn [plug fin]. unfold finish. rewrite H1, H2, H3.
    unfold xbind, xret. cbn [mDefers run_defers]. unfold xret, x_get. cbn [mEnv].
    now rewrite H4.
  Qed.
  (* with one deferred call *)
  Lemma fin_ret_ptr_defer fn x r env h b fl f env' d' h' v vs :
    fresults fn = [] -> fptr fn = true -> fparams fn = x :: r ->
    run_block (EX n) None b (push [] (mkMs env [b] h)) = (Ok fl, mkMs (f :: env') d' h') ->
    elookup x env' = Some v ->
    fin n fn (plug n [] (Ok (FRet (Some vs)), mkMs env [b] h)) = (Ok (v :: vs), h').
  Proof.
    intros H1 H2 H3 H4 H5. cbn [plug fin]. unfold finish. rewrite H1, H2, H3.
    unfold xbind, xret. cbn [mDefers run_defers]. unfold xbind, x_scope.
    fold (push [] (mkMs env [b] h)). rewrite H4. cbn [mEnv mDefers mHeap tl].
    unfold xret, x_get. cbn [mEnv]. now rewrite H5.
  Qed.
  Lemma fin_panic_defer fn env h b r s :
    run_block (EX n) None b (push [] (mkMs env [b] h)) = (r, s) ->
    fin n fn (plug n [] (Panic, mkMs env [b] h)) = (Panic, mHeap s).
  Proof.
    intros H4. cbn [plug fin]. cbn [mDefers run_defers]. unfold xbind, x_scope.
    fold (push [] (mkMs env [b] h)). rewrite H4. now destruct r.
  Qed.
  Lemma fin_panic fn env h :
    fin n fn (plug n [] (Panic, mkMs env [] h)) = (Panic, h).
  Proof. reflexivity. Qed.
End Whole.

Lemma len_map {A} (f : A -> val) l : v_len (VLst (map f l)) = Ok (VInt (Z.of_nat (length l))).
Proof. cbn. now rewrite map_length. Qed.

Lemma sget_map {A B} (f : A -> B) l i :
  sget (map f l) i = match sget l i with Ok a => Ok (f a) | Err e => Err e | Panic => Panic
                     | Hang => Hang end.
Proof.
  unfold sget. destruct (i <? 0); [reflexivity|]. rewrite nth_error_map.
  now destruct (nth_error l (Z.to_nat i)).
Qed.

Lemma idx_vget l i :
  0 <= i < Z.of_nat (length l) -> v_index (VLst (map VInt l)) (VInt i) = Ok (VInt (vget l i)).
Proof.
  intros H. cbn [v_index]. rewrite sget_map. unfold sget, vget.
  replace (i <? 0) with false by lia.
  destruct (nth_error l (Z.to_nat i)) as [x|] eqn:E.
  - now rewrite (nth_error_nth _ _ _ E).
  - apply nth_error_None in E. lia.
Qed.

(* ---- tactics ---- *)

Create HintDb gocall.
Create HintDb gometh discriminated.
Global Hint Constants Opaque : gometh.
Global Hint Extern 1 (_ <= _)%nat => lia : gocall.
Global Hint Extern 1 (_ < _)%nat => lia : gocall.

Ltac red_env :=
  cbv beta iota zeta delta
    [eupdate elookup fupdate flookup name_eqb option_map push pop mEnv mDefers mHeap tl bind_name
     params fparams].
Ltac look := red_env; reflexivity.

Ltac hyp := solve [eassumption | eauto 1 with nocore].
Ltac idx := try (eapply idx_vget; lia).
Ltac call := solve [eauto 4 with gocall].
Ltac prim_tac :=
  lazymatch goal with
  | |- v_len _ = _ => first [eapply len_map | reflexivity]
  | |- _ => cbv beta iota zeta delta
              [v_sel v_set_sel v_bin comparable comparable0 comparable_all v_dyn v_str strings prim format name_eqb flookup fupdate option_map
               fst snd];
            reflexivity
  end.

Lemma wb_var x v env d h env' :
  eupdate x v env = Some env' ->
  write_back (XVar x) v (mkMs env d h) = (Ok tt, mkMs env' d h).
Proof. intros H. cbn [write_back]. unfold x_set. cbn [mEnv]. now rewrite H. Qed.
Lemma wb_sel e f v v' w st st1 st2 :
  read_back e st = (Ok w, st1) -> v_set_sel w f v = Ok v' ->
  write_back e v' st1 = (Ok tt, st2) ->
  write_back (XSel e f) v st = (Ok tt, st2).
Proof.
  intros H1 H2 H3. cbn [write_back]. unfold xbind. rewrite H1. unfold xlift. now rewrite H2, H3.
Qed.
Lemma rb_var x v env d h :
  elookup x env = Some v -> read_back (XVar x) (mkMs env d h) = (Ok v, mkMs env d h).
Proof. intros H. cbn [read_back]. unfold x_get. cbn [mEnv]. now rewrite H. Qed.
Lemma rb_sel e f v w st st1 :
  read_back e st = (Ok w, st1) -> v_sel w f = Ok v -> read_back (XSel e f) st = (Ok v, st1).
Proof. intros H1 H2. cbn [read_back]. unfold xbind. rewrite H1. unfold xlift. now rewrite H2. Qed.
Ltac rb :=
  lazymatch goal with
  | |- read_back (XVar _) _ = _ => eapply rb_var; look
  | |- read_back (XSel _ _) _ = _ => eapply rb_sel; [rb | prim_tac]
  end.
Ltac wb :=
  lazymatch goal with
  | |- write_back (XVar _) _ _ = _ => eapply wb_var; look
  | |- write_back (XSel _ _) _ _ = _ => eapply wb_sel; [rb | prim_tac | wb]
  end.

(* Rules for expressions, added by later files. *)
Ltac ev_hook e := fail.

Ltac ev :=
  lazymatch goal with
  | |- eval _ _ _ _ ?e _ = _ =>
    first [ev_hook e |
    lazymatch e with
    | XInt _ => apply ev_int
    | XBool _ => apply ev_bool
    | XStr _ => apply ev_str
    | XNil => apply ev_nil
    | XMap => apply ev_map
    | XVar _ => eapply ev_var; look
    | XGlob _ => eapply ev_glob; vm_compute; reflexivity
    | XSel _ _ => eapply ev_sel; [ev | prim_tac]
    | XIdx _ _ => eapply ev_idx; [ev | ev | first [hyp | reflexivity | idx]]
    | XIdx2 _ _ => eapply ev_idx2; [ev | ev | try hyp]
    | XNeg _ => eapply ev_neg; ev
    | XNot _ => eapply ev_not; ev
    | XBin OAnd _ _ => eapply ev_and; [ev | ev]
    | XBin OOr _ _ => eapply ev_or; [ev | ev]
    | XBin _ _ _ => eapply ev_bin; [discriminate | discriminate | ev | ev | prim_tac]
    | XLst _ => eapply ev_lst; evs
    | XStc _ _ => eapply ev_stc; evfs
    | XLen _ => eapply ev_len; [ev | prim_tac]
    | XMake _ _ => eapply ev_make; [ev | ev | try hyp]
    | XApp _ _ => eapply ev_app; [ev | evs]
    | XAppS _ _ => eapply ev_apps; [ev | ev]
    | XCall _ _ => eapply ev_call; [evs | red_env; call
                                | cbv beta iota delta [one]; reflexivity]
    | XPrim _ _ => eapply ev_prim; [evs | prim_tac]
    | XDyn _ _ => eapply ev_dyn; [ev | evs | first [prim_tac | idtac]]
    | XMeth _ _ _ => eapply ev_meth; [ev | evs | meth]
    | XSlc _ None None => eapply ev_slc; [ev | reflexivity | reflexivity | try hyp]
    | XSlc _ (Some _) None => eapply ev_slc; [ev | eapply ev_slc_opt; ev | reflexivity | try hyp]
    | XSlc _ None (Some _) => eapply ev_slc; [ev | reflexivity | eapply ev_slc_opt; ev | try hyp]
    end]
  end
with evs :=
  lazymatch goal with
  | |- x_map _ [] _ = _ => apply xm_nil
  | |- x_map _ (_ :: _) _ = _ => eapply xm_cons; [ev | evs]
  end
with evfs :=
  lazymatch goal with
  | |- x_map _ [] _ = _ => apply xf_nil
  | |- x_map _ (_ :: _) _ = _ => eapply xf_cons; [ev | evfs]
  end
with meth :=
  red_env;
  first
    [ solve [eauto 4 with gometh]
    | eapply xm_val; [reflexivity | cbv; reflexivity | vm_compute; reflexivity | call
                      | cbv beta iota delta [one]; reflexivity]
    | eapply xm_ptr; [reflexivity | cbv; reflexivity | vm_compute; reflexivity | call | wb
                      | cbv beta iota delta [one]; reflexivity]
    | eapply xm_prim; [reflexivity | cbv; reflexivity | vm_compute; reflexivity
                      | cbv beta iota zeta delta [prim_meth name_eqb]; reflexivity
                      | cbv beta iota delta [one]; reflexivity]
    | eapply xm_prim_ptr; [reflexivity | cbv; reflexivity | vm_compute; reflexivity
                      | cbv beta iota zeta delta [prim_meth name_eqb]; reflexivity | wb
                      | cbv beta iota delta [one]; reflexivity] ].

Ltac asg :=
  red_env;
  lazymatch goal with
  | |- x_assign _ (LNew _) _ _ = _ => apply as_new
  | |- x_assign _ LBlank _ _ = _ => apply as_blank
  | |- x_assign _ (LVar _) _ _ = _ => eapply as_var; look
  | |- x_assign _ (LSel _ _) _ _ = _ => eapply as_sel; [rd | prim_tac | asg]
  | |- x_assign _ (LIdx _ _) _ _ = _ => eapply as_idx; [ev | rd | try hyp | asg]
  end
with rd :=
  lazymatch goal with
  | |- x_read _ (LVar _) _ = _ => eapply rd_var; look
  | |- x_read _ (LSel _ _) _ = _ => eapply rd_sel; [rd | prim_tac]
  | |- x_read _ (LIdx _ _) _ = _ => eapply rd_idx; [rd | ev | try hyp]
  end.

Ltac ex1 :=
  lazymatch goal with
  | |- exec _ _ _ _ _ (SAssign [_] [_]) _ = _ => eapply ex_assign; [ev | asg]
  | |- exec _ _ _ _ _ (SAssign [_; _] [_]) _ = _ => eapply ex_assign2; [ev | asg | asg]
  | |- exec _ _ _ _ _ (SAssign [_; _; _] [_]) _ = _ =>
      eapply ex_assign3; [ev | asg | asg | asg]
  | |- exec _ _ _ _ _ (SAssign [_; _] [_; _]) _ = _ =>
      eapply ex_assign22; [ev | ev | asg | asg]
  | |- exec _ _ _ _ _ (SAssign [_; _; _] [_; _; _]) _ = _ =>
      eapply ex_assign33; [ev | ev | ev | asg | asg | asg]
  | |- exec _ _ _ _ _ (SExpr _) _ = _ => eapply ex_expr; ev
  | |- exec _ _ _ _ _ (SDelete _ _) _ = _ => eapply ex_delete; [ev | rd | asg]
  end.

Ltac blk :=
  red_env;
  lazymatch goal with
  | |- run_block _ None [] _ = _ => apply blk_nil
  | |- run_block _ None (_ :: _) _ = _ => eapply blk_step; [ex1 | blk]
  end.

Ltac red_cond :=
  cbv beta iota zeta delta [push mEnv mDefers mHeap];
  try lazymatch goal with
  | |- context [plug _ (KPop :: KPop :: KSeq _ :: _)
                  (run_block _ None (if ?b then _ else _) _)] =>
      let b' := eval cbv beta iota zeta delta
                  [veq veq0 fields_eq negb v_err v_clause name_eqb andb orb] in b in
      change b with b'; cbv iota
  end.

Lemma spread2 a b : spread [a; b] = [a; b].
Proof. now destruct a. Qed.

(* One statement, or the end of a block. *)
Ltac st1 :=
  lazymatch goal with
  | |- context [plug _ _ (run_block _ None ?l _)] =>
    lazymatch l with
    | [] => rewrite plug_nil
    | SReturn [] :: _ => rewrite plug_ret0
    | SReturn [_; _] :: _ => erewrite plug_ret; [ | discriminate | evs ]; rewrite spread2
    | SReturn _ :: _ => erewrite plug_ret; [ | discriminate | evs ]; cbv beta iota zeta delta [spread]
    | SContinue :: _ => rewrite plug_continue
    | SBreak :: _ => rewrite plug_break
    | SIf _ _ _ _ :: _ => erewrite plug_if; [ | blk | ev ]; red_cond
    | SRange _ _ _ _ :: _ => fail "range"
    | SFor _ _ _ _ :: _ => fail "for"
    | _ :: _ => erewrite plug_step; [ | ex1 ]
    end
  | |- context [plug _ (KSeq _ :: _) (Ok FNext, _)] => rewrite plug_seq_next
  | |- context [plug _ (KSeq _ :: _) (Ok FContinue, _)] => rewrite plug_seq_continue
  | |- context [plug _ (KSeq _ :: _) (Ok FBreak, _)] => rewrite plug_seq_break
  | |- context [plug _ (KSeq _ :: _) (Ok (FRet _), _)] => rewrite plug_seq_ret
  | |- context [plug _ (KSeq _ :: _) (Panic, _)] => rewrite plug_seq_panic
  | |- context [plug _ (KPop :: _) (_, mkMs (_ :: _) _ _)] => rewrite plug_pop
  | |- context [fin _ _ (plug _ [] (Ok (FRet (Some _)), _))] =>
      first [ rewrite fin_ret by reflexivity
            | erewrite fin_ret_ptr; [ | reflexivity | reflexivity | reflexivity | look]
            | erewrite fin_ret_ptr_defer;
                [ | reflexivity | reflexivity | reflexivity | blk | look] ]
  | |- context [fin _ _ (plug _ [] (Ok (FRet None), _))] =>
      erewrite fin_ret0_ptr; [ | reflexivity | reflexivity | reflexivity | look]
  | |- context [fin _ _ (plug _ [] (Ok FNext, _))] =>
      erewrite fin_next_ptr; [ | reflexivity | reflexivity | reflexivity | look]
  | |- context [fin _ _ (plug _ [] (Panic, _))] => rewrite fin_panic
  | |- plug _ [] ?p = _ => change (plug _ [] p) with p
  end.
Ltac sts := repeat st1.

(* Taking a branch. *)
Ltac br v :=
  lazymatch goal with
  | |- context [plug _ (KPop :: KPop :: KSeq _ :: _)
                  (run_block _ None (if ?b then _ else _) _)] =>
      replace b with v by (first [reflexivity | cbn [length]; lia]); cbv iota
  end.
Ltac brT := br true.
Ltac brF := br false.

(* Entering a function. *)
Ltac func fn :=
  intros;
  match goal with
  | |- context [gocall ?n _ _ _] =>
      destruct n as [|n]; [exfalso; lia|];
      erewrite (call_intro n _ fn);
        [ | vm_compute; reflexivity | reflexivity
          | cbv beta iota delta [fbody fn]; reflexivity
          | cbv beta iota delta [fparams fn]; reflexivity ];
      red_env
  end.

(* Variables and heap changed by a loop. *)
Fixpoint upd_vars (us : list (string * val)) (e : list frame) : list frame :=
  match us with
  | [] => e
  | (x, v) :: r => upd_vars r (match eupdate x v e with Some e' => e' | None => e end)
  end.
Definition upd (us : list (string * val)) (s : ms) : ms :=
  mkMs (upd_vars us (mEnv s)) (mDefers s) (mHeap s).
Definition updh (us : list (string * val)) (h : heap) (s : ms) : ms :=
  mkMs (upd_vars us (mEnv s)) (mDefers s) h.
Ltac red_upd t :=
  eval cbv beta iota zeta delta
    [upd updh upd_vars eupdate fupdate name_eqb option_map mEnv mDefers mHeap] in t.

Ltac rngr f stp init :=
  lazymatch goal with
  | |- context [run_block _ None (SRange _ _ _ _ :: _) ?st] =>
      let mk := red_upd (fun s => upd (f s) st) in
      let i := fresh "i" in let a := fresh "a" in let s := fresh "s" in
      let Hi := fresh "Hi" in let Hn := fresh "Hn" in
      erewrite plug_exec;
        [ | eapply (ex_range_run _ mk stp) with (s0 := init);
            [ev | intros i a s Hi Hn; red_env] ]
  end.

(* for .. range, changing the variables [f] *)
Ltac rng f stp :=
  lazymatch goal with
  | |- context [run_block _ None (SRange _ _ _ _ :: _) ?st] =>
      let mk := red_upd (fun s => upd (f s) st) in
      let i := fresh "i" in let a := fresh "a" in let s := fresh "s" in
      erewrite plug_step;
        [ | eapply (ex_range0 _ mk stp);
            [ev | intros i a s; exists FNext; split; [now left|]; red_env] ]
  end.
