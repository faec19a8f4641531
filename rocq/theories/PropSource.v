(* Property C61: the text of the library, read as a program of the language of
   GoLang.v, computes what the model computes.  GoSource.v is the text (printed by
   tools/go2coq.py), GoLang.v says what programs of the language do; neither
   mentions the model.  [n] bounds nested calls and turns of loops; the results are
   the same for all [n] from the given bound on. *)
From Verif Require Import GoBase Cnf Query Walk Atoms Logop GoLang GoSource SrcBase SrcLemmas SrcCnf SrcQuery.
Local Open Scope string_scope.
Local Open Scope Z_scope.
Local Open Scope list_scope.

(* [f args] returns [vs] and leaves the heap as it is. *)
Definition returns (bound : nat) (f : string) (args vs : list val) : Prop :=
  forall n h, (bound <= n)%nat -> gocall n f args h = (Ok vs, h).
Definition panics (bound : nat) (f : string) (args : list val) : Prop :=
  forall n h, (bound <= n)%nat -> gocall n f args h = (Panic, h).

(* cnf/cnf.go, all functions except ToFile (C65); a method with pointer receiver returns
   the new receiver first. *)
Theorem C61_cnf : forall (c oc : CNF) (cls : list clause) (cl : clause) (a b : Z) (o : option Z),
  returns 1 "cnf.absInt" [VInt a] [VInt (absInt a)] /\
  returns 1 "cnf.maxInt" [VInt a; VInt b] [VInt (maxInt a b)] /\
  returns 2 "cnf.maxVar" [v_clauses cls] [VInt (maxVar cls)] /\
  returns 3 "cnf.FromClauses" [v_clauses cls] [v_cnf (FromClauses cls)] /\
  returns 1 "cnf.CNF.TopV" [v_cnf c] [VInt (TopV c)] /\
  returns 3 "cnf.CNF.AppendSemantics" [v_cnf c; v_clauses cls] [v_cnf (AppendSemantics c cls)] /\
  returns 3 "cnf.CNF.AppendConsistency" [v_cnf c; v_clauses cls] [v_cnf (AppendConsistency c cls)] /\
  returns 4 "cnf.CNF.Conjunction" [v_cnf c; v_cnf oc] [v_cnf (Conjunction c oc)] /\
  returns 1 "cnf.CNF.hasEmptySemanticClause" [v_cnf c] [VBool (hasEmptySemanticClause c)] /\
  returns 1 "cnf.CNF.TriviallyFalse" [v_cnf c] [VBool (TriviallyFalse c)] /\
  returns 1 "cnf.CNF.TriviallyTrue" [v_cnf c] [VBool (TriviallyTrue c)] /\
  returns 1 "cnf.CNF.Clauses" [v_cnf c] [v_clauses (sClauses c); v_clauses (cClauses c)] /\
  returns 1 "cnf.clauseToDIMACS" [v_clause cl] [VStr (clauseToDIMACS cl)] /\
  returns 2 "cnf.CNF.ToBytes" [v_cnf c] [VStr (ToBytes c)] /\
  returns 1 "cnf.CNF.addNegationIFFClauses" [v_cnf c; v_clause cl] [v_cnf (addNegationIFFClauses c cl)] /\
  returns 2 "cnf.CNF.tseytinNegation" [v_cnf c; VInt a] [v_cnf (tseytinNegation c a)] /\
  returns 4 "cnf.CNF.Negate" [v_cnf c; v_feats (match o with Some k => [k] | None => [] end)]
    [v_cnf (Negate c o)].
Proof.
  intros. repeat match goal with |- _ /\ _ => split end; intros n h Hn; eauto with gocall.
Qed.
Print Assumptions C61_cnf.

(* query/*.go. *)
Theorem C61_query : forall (c t : QConst) (cs : list QConst) (d : nat) (x : node) (vm : varman)
    (s : scoper) (v : QVar) (i y : Z) (l : list FeatV) (m : model),
  returns 1 "query.QConst.IsFull" [v_const c] [VBool (IsFull c)] /\
  returns 1 "query.QConst.AsString" [v_const c] [VStr (AsString c)] /\
  returns 1 "query.QConst.BotCount" [v_const c] [VInt (BotCount c)] /\
  returns 1 "query.QConst.EqualValue" [v_const c; v_const t] [VBool (EqualValue c t)] /\
  returns (d + 2) "query.AllBotConst" [VInt (Z.of_nat d)] [v_const (AllBotConst d)] /\
  returns 1 "query.ValidateConstsDim" [VInt (Z.of_nat d); VLst (map v_const cs)]
    [v_err (ValidateConstsDim d cs)] /\
  returns 1 "query.Node.IsLeaf" [v_node x] [VBool (IsLeaf x)] /\
  returns 1 "query.baseVarManager.TopV" [v_varman vm] [v_varman vm; VInt (vm_topv vm)] /\
  returns 1 "query.baseVarManager.UpdateTopV" [v_varman vm; VInt i]
    [v_varman (snd (UpdateTopV vm i)); VBool (fst (UpdateTopV vm i))] /\
  returns 1 "query.baseVarManager.CNFVar" [v_varman vm; VStr v; VInt i; VInt y]
    [v_varman (snd (CNFVar vm (v, i, y))); VInt (fst (CNFVar vm (v, i, y)))] /\
  returns 1 "query.baseVarManager.CNFVarExists" [v_varman vm; VStr v; VInt i; VInt y]
    [v_varman vm; VBool (CNFVarExists vm (v, i, y))] /\
  returns 1 "query.baseVarManager.Reset" [v_varman vm] [v_varman (VarmanReset vm)] /\
  match ScopeVar s v with
  | Ok w => returns (levels s + 2) "query.baseScoper.ScopeVar" [v_scoper s; VStr v] [v_scoper s; VStr w]
  | _ => panics (levels s + 2) "query.baseScoper.ScopeVar" [v_scoper s; VStr v]
  end /\
  returns 1 "query.baseScoper.AddVar" [v_scoper s; VStr v] [v_scoper (AddVar s v)] /\
  returns 1 "query.baseScoper.ScopeConst" [v_scoper s; v_const c]
    [v_scoper s; v_const (fst (ScopeConst s c)); VBool (snd (ScopeConst s c))] /\
  returns 1 "query.baseScoper.AddScope" [v_scoper s; VStr v] [v_scoper (AddScope s v)] /\
  returns 1 "query.baseScoper.SetScope" [v_scoper s; VInt i; v_feats l]
    [v_scoper (snd (SetScope s i l)); v_err (fst (SetScope s i l))] /\
  (* a map has no key twice *)
  (NoDup (map fst (svars s)) ->
   returns 1 "query.baseScoper.PopScope" [v_scoper s]
     [v_scoper (snd (PopScope s)); v_err (fst (PopScope s))]) /\
  returns 1 "query.baseScoper.Reset" [v_scoper s] [v_scoper (ScoperReset s)] /\
  returns 2 "query.baseQContext.Reset" [v_ctx (mkCtx s vm m)] [v_ctx (CtxReset (mkCtx s vm m))] /\
  (forall n h, (1 <= n)%nat ->
     gocall n "query.BasicQContext" [v_model m] h
     = (Ok [VPtr (length h)], h ++ [v_ctx (BasicQContext m)])).
Proof.
  intros. repeat match goal with |- _ /\ _ => split end; try (intros n h Hn; eauto with gocall; fail).
  - destruct (ScopeVar s v) eqn:E; intros n h Hn; rewrite go_ScopeVar, E by exact Hn; reflexivity.
  - intros n h Hn. now apply go_CtxReset.
  - intros n h Hn. now apply go_BasicQContext.
Qed.
Print Assumptions C61_query.

(* The text and the model, run side by side on a formula with both kinds of
   clauses and on a context inside a quantifier. *)
Example C61_cnf_case :
  let f := mkCNF 3 [[1; -2]; [3]] [[-1]] in
  gocall 9 "cnf.CNF.Negate" [v_cnf f; v_feats [7]] [] = (Ok [v_cnf (Negate f (Some 7))], [])
  /\ sClauses (Negate f (Some 7)) = [[9]].
Proof. vm_compute. split; reflexivity. Qed.
Example C61_query_case :
  let s := fst (AddVar (mkScoper [mkScope "c" [0; 1] 2] [("x", 1%nat)]) "y", tt) in
  gocall 9 "query.baseScoper.ScopeVar" [v_scoper s; VStr "y"] []
  = (match ScopeVar s "y" with Ok w => Ok [v_scoper s; VStr w] | _ => Panic end, [])
  /\ ScopeVar s "y" <> Ok "y".
Proof. vm_compute. split; [reflexivity|discriminate]. Qed.
