(* The values of GoLang.v that stand for the data of the model, and the program
   of GoSource.v. *)
From Verif Require Import GoBase Cnf Query Walk Atoms Logop GoLang GoSource.
Local Open Scope string_scope.
Local Open Scope Z_scope.
Local Open Scope list_scope.

Definition the_globals : list (string * val) :=
  Eval vm_compute in init_globals source_globals.

Definition prog : program := mkProgram source source_embedded the_globals.

(* Calling a function of the library. *)
Definition gocall : nat -> string -> list val -> heap -> res (list val) * heap :=
  call_func prog.

(* ---- data ---- *)

(* cnf/cnf.go:27-37 *)
Definition v_clause (cl : clause) : val := VLst (map VInt cl).
Definition v_clauses (cls : list clause) : val := VLst (map v_clause cls).
Definition v_cnf (c : CNF) : val :=
  VStc "cnf.CNF" [("tv", VInt (tv c)); ("sClauses", v_clauses (sClauses c));
                  ("cClauses", v_clauses (cClauses c))].

(* query/instances.go:55-58 *)
Definition v_feats (l : list Z) : val := VLst (map VInt l).
Definition v_const (c : QConst) : val :=
  VStc "query.QConst" [("ID", VStr (cID c)); ("Val", v_feats (cVal c))].

(* query/model.go:16-28 *)
Definition v_node (n : node) : val :=
  VStc "query.Node" [("Value", VBool (nValue n)); ("Feat", VInt (nFeat n));
                     ("ZChild", VInt (zChild n)); ("OChild", VInt (oChild n))].
Definition v_nodes (l : list node) : val := VLst (map v_node l).

(* A Model is seen through Dim and Nodes. *)
Definition v_model (m : model) : val :=
  VStc "Model" [("dim", VInt (Z.of_nat (Dim m))); ("nodes", v_nodes (Nodes m))].

(* query/scoper.go:36-46; the builder is empty between calls *)
Definition v_scope (s : scope) : val :=
  VStc "query.scope" [("target", VStr (sTarget s)); ("value", v_feats (sValue s));
                      ("vIdx", VInt (sIdx s))].
Definition v_levels (l : list (string * nat)) : list (val * val) :=
  map (fun p => (VStr (fst p), VInt (Z.of_nat (snd p)))) l.
Definition v_builder (s : string) : val := VStc "strings.Builder" [("buf", VStr s)].
Definition v_scoper (s : scoper) : val :=
  VStc "query.baseScoper"
    [("builder", v_builder ""); ("scopes", VLst (map v_scope (scopes s)));
     ("vars", VMap (v_levels (svars s)))].

(* query/varmanager.go:25-34 *)
Definition v_varRep (t : varRep) : val :=
  VStc "query.varRep" [("v", VStr (fst (fst t))); ("idx", VInt (snd (fst t)));
                       ("val", VInt (snd t))].
Definition v_vars (l : list (varRep * Z)) : list (val * val) :=
  map (fun p => (v_varRep (fst p), VInt (snd p))) l.
Definition v_varman (vm : varman) : val :=
  VStc "query.baseVarManager"
    [("topv", VInt (vm_topv vm)); ("vars", VMap (v_vars (vm_vars vm)))].

(* query/context.go:13-17 *)
Definition v_ctx (c : ctx) : val :=
  VStc "query.baseQContext"
    [("baseScoper", v_scoper (cScoper c)); ("baseVarManager", v_varman (cVM c));
     ("Model", v_model (cModel c))].

(* Errors without a sentinel. *)
Definition v_err (o : option string) : val :=
  match o with Some e => VErr e [] | None => VNil end.

(* Generators of variables; a nil function is nil. *)
Definition v_gen1 (g : gen1) : val :=
  match g with
  | None => VNil
  | Some g => VGen (fun l => match l with [a] => g a | _ => "" end)
  end.
Definition v_gen2 (g : gen2) : val :=
  match g with
  | None => VNil
  | Some g => VGen (fun l => match l with [a; b] => g a b | _ => "" end)
  end.
Definition v_gen3 (g : gen3) : val :=
  match g with
  | None => VNil
  | Some g => VGen (fun l => match l with [a; b; c] => g a b c | _ => "" end)
  end.

(* The structs of the predicates and extensions. *)
Definition v_atom (a : atom) : val :=
  let v := VStr in
  let k := v_const in
  match a with
  | SubsVV a b => VStc "subsumption.VarVar" [("I1", v a); ("I2", v b)]
  | SubsVC a b => VStc "subsumption.VarConst" [("I1", v a); ("I2", k b)]
  | SubsCV a b => VStc "subsumption.ConstVar" [("I1", k a); ("I2", v b)]
  | SubsCC a b => VStc "subsumption.ConstConst" [("I1", k a); ("I2", k b)]
  | LelVV a b g =>
      VStc "lel.VarVar" [("I1", v a); ("I2", v b); ("CountVarGen", v_gen1 g)]
  | LelVC a b g =>
      VStc "lel.VarConst" [("I1", v a); ("I2", k b); ("CountVarGen", v_gen1 g)]
  | LelCV a b g =>
      VStc "lel.ConstVar" [("I1", k a); ("I2", v b); ("CountVarGen", v_gen1 g)]
  | LelCC a b => VStc "lel.ConstConst" [("I1", k a); ("I2", k b)]
  | NodeV a g => VStc "isnode.Var" [("I", v a); ("ReachNodeVarGen", v_gen1 g)]
  | NodeC a => VStc "isnode.Const" [("I", k a)]
  | FullV a => VStc "full.Var" [("I", v a)]
  | FullC a => VStc "full.Const" [("I", k a)]
  | ConsVV a b => VStc "cons.VarVar" [("I1", v a); ("I2", v b)]
  | ConsVC a b => VStc "cons.VarConst" [("I1", v a); ("I2", k b)]
  | ConsCV a b => VStc "cons.ConstVar" [("I1", k a); ("I2", v b)]
  | ConsCC a b => VStc "cons.ConstConst" [("I1", k a); ("I2", k b)]
  | AllV a b g =>
      VStc "allcomp.Var"
        [("I", v a); ("LeafValue", VBool b); ("ReachNodeVarGen", v_gen1 g)]
  | AllC a b => VStc "allcomp.Const" [("I", k a); ("LeafValue", VBool b)]
  | DfsV a => VStc "dfs.Var" [("I", v a)]
  | DfsC a => VStc "dfs.Const" [("I", k a)]
  | HeprVV a b p g =>
      VStc "hepr.VarVar"
        [("I1", v a); ("I2", v b); ("Preference", v_feats p);
         ("FeaturePreferenceRankVarGen", v_gen3 g)]
  | HeprVC a b p g =>
      VStc "hepr.VarConst"
        [("I1", v a); ("I2", k b); ("Preference", v_feats p);
         ("FeaturePreferenceRankVarGen", v_gen3 g)]
  | HeprCV a b p g =>
      VStc "hepr.ConstVar"
        [("I1", k a); ("I2", v b); ("Preference", v_feats p);
         ("FeaturePreferenceRankVarGen", v_gen3 g)]
  | HeprCC a b p =>
      VStc "hepr.ConstConst" [("I1", k a); ("I2", k b); ("Preference", v_feats p)]
  | LehVVV a b c hd ef =>
      VStc "leh.VarVarVar"
        [("I1", v a); ("I2", v b); ("I3", v c);
         ("HammingDistanceVarGen", v_gen2 hd); ("EqualFeatureVarGen", v_gen2 ef)]
  | LehVVC a b c hd ef =>
      VStc "leh.VarVarConst"
        [("I1", v a); ("I2", v b); ("I3", k c);
         ("HammingDistanceVarGen", v_gen2 hd); ("EqualFeatureVarGen", v_gen2 ef)]
  | LehVCV a b c hd ef =>
      VStc "leh.VarConstVar"
        [("I1", v a); ("I2", k b); ("I3", v c);
         ("HammingDistanceVarGen", v_gen2 hd); ("EqualFeatureVarGen", v_gen2 ef)]
  | LehCVV a b c hd =>
      VStc "leh.ConstVarVar"
        [("I1", k a); ("I2", v b); ("I3", v c); ("HammingDistanceVarGen", v_gen2 hd)]
  | LehVCC a b c hd =>
      VStc "leh.VarConstConst"
        [("I1", v a); ("I2", k b); ("I3", k c); ("HammingDistanceVarGen", v_gen2 hd)]
  | LehCVC a b c hd =>
      VStc "leh.ConstVarConst"
        [("I1", k a); ("I2", v b); ("I3", k c); ("HammingDistanceVarGen", v_gen2 hd)]
  | LehCCV a b c hd =>
      VStc "leh.ConstConstVar"
        [("I1", k a); ("I2", k b); ("I3", v c); ("HammingDistanceVarGen", v_gen2 hd)]
  | LehCCC a b c =>
      VStc "leh.ConstConstConst" [("I1", k a); ("I2", k b); ("I3", k c)]
  end.

(* query/logop/*.go *)
Fixpoint v_query (q : query) : val :=
  match q with
  | QNil => VNil
  | QAtom a => v_atom a
  | QNot q => VStc "logop.Not" [("Q", v_query q)]
  | QAnd q1 q2 => VStc "logop.And" [("Q1", v_query q1); ("Q2", v_query q2)]
  | QOr q1 q2 => VStc "logop.Or" [("Q1", v_query q1); ("Q2", v_query q2)]
  | QWith v q => VStc "logop.WithVar" [("I", VStr v); ("Q", v_query q)]
  | QAll c q => VStc "logop.ForAllGuarded" [("I", v_const c); ("Q", v_query q)]
  end.

(* q.Encoding(ctx): the context is a pointer to the first cell of the heap. *)
Definition type_of (v : val) : string := match v with VStc t _ => t | _ => "" end.
Definition go_encoding (n : nat) (q : query) (h : heap) : res (list val) * heap :=
  gocall n (type_of (v_query q) ++ ".Encoding") [v_query q; VPtr 0] h.
