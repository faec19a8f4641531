(* Encoding with any VarManager.  query/varmanager.go:3-23 is an interface, and a
   context can be given another implementation than baseVarManager.  Here a
   manager is a type of states with the four methods that encoders call; the
   encoders of Atoms.v and Logop.v are repeated over it (the context's scoper and
   model are those of the library). *)
From Verif Require Import GoBase Cnf Query Walk Atoms Logop.
Local Open Scope Z_scope.

(* query/varmanager.go:7-22 without Reset, which encoders do not call.  The bool
   that UpdateTopV returns is left out: no caller looks at it. *)
Record manager (V : Type) := mkManager
  { v_Top : V -> Z;
    v_Update : Z -> V -> V;
    v_Var : varRep -> V -> Z * V;
    v_Exists : varRep -> V -> bool }.
Arguments v_Top {V}. Arguments v_Update {V}. Arguments v_Var {V}. Arguments v_Exists {V}.

(* baseVarManager, query/varmanager.go:36-61 *)
Definition base_manager : manager varman :=
  mkManager varman vm_topv (fun v vm => snd (UpdateTopV vm v)) (fun t vm => CNFVar vm t) (fun t vm => CNFVarExists vm t).

Section Enc.
Variables (V : Type) (X : manager V).

(* query/context.go:5-11 *)
Record gctx := mkGctx { gScoper : scoper; gVM : V; gModel : model }.
Definition GM (A : Type) : Type := gctx -> res A * gctx.

Fixpoint galloc_vars (w : V) (l : list varRep) : V :=
  match l with
  | [] => w
  | t :: r => galloc_vars (snd (v_Var X t w)) r
  end.
Fixpoint galloc_clause (w : V) (cl : sclause) : clause * V :=
  match cl with
  | [] => ([], w)
  | (s, t) :: r =>
      let (n, w) := v_Var X t w in
      let (r', w) := galloc_clause w r in
      ((if s then n else - n) :: r', w)
  end.
Fixpoint galloc_clauses (w : V) (cls : list sclause) : list clause * V :=
  match cls with
  | [] => ([], w)
  | cl :: r =>
      let (cl', w) := galloc_clause w cl in
      let (r', w) := galloc_clauses w r in
      (cl' :: r', w)
  end.
Definition grun_emit (cv : CNF * V) (e : emit) : CNF * V :=
  let (c, w) := cv in
  match e with
  | EAlloc l => (c, galloc_vars w l)
  | EFrom cls => let (cls, w) := galloc_clauses w cls in (FromClauses cls, w)
  | ESem cls => let (cls, w) := galloc_clauses w cls in (AppendSemantics c cls, w)
  | ECons cls => let (cls, w) := galloc_clauses w cls in (AppendConsistency c cls, w)
  end.
Definition grun_emits (w : V) (es : list emit) : CNF * V := fold_left grun_emit es (TrueCNF, w).

Definition gret {A} (a : A) : GM A := fun c => (Ok a, c).
Definition gfail {A} (e : string) : GM A := fun c => (Err e, c).
Definition glift {A} (r : res A) : GM A := fun c => (r, c).
Definition gbind {A B} (m : GM A) (f : A -> GM B) : GM B :=
  fun c => match m c with
           | (Ok a, c') => f a c'
           | (Err e, c') => (Err e, c')
           | (Panic, c') => (Panic, c')
           | (Hang, c') => (Hang, c')
           end.
Definition gwrap {A} (p : string) (m : GM A) : GM A :=
  fun c => match m c with
           | (Err e, c') => (Err (p ++ ": " ++ e)%string, c')
           | r => r
           end.
Definition gset_scoper (c : gctx) (s : scoper) : gctx := mkGctx s (gVM c) (gModel c).
Definition gset_vm (c : gctx) (w : V) : gctx := mkGctx (gScoper c) w (gModel c).

Definition g_AddVar (v : QVar) : GM unit := fun c => (Ok tt, gset_scoper c (AddVar (gScoper c) v)).
Definition g_ScopeVar (v : QVar) : GM QVar := fun c => (ScopeVar (gScoper c) v, c).
Definition g_AddScope (t : string) : GM unit := fun c => (Ok tt, gset_scoper c (AddScope (gScoper c) t)).
Definition g_SetScope (i : Z) (v : list FeatV) : GM unit :=
  fun c => let (e, s) := SetScope (gScoper c) i v in
           (match e with Some e => Err e | None => Ok tt end, gset_scoper c s).
Definition g_TopV : GM Z := fun c => (Ok (v_Top X (gVM c)), c).
Definition g_UpdateTopV (v : Z) : GM unit := fun c => (Ok tt, gset_vm c (v_Update X v (gVM c))).

Definition gdefer_PopScope {A} (m : GM A) : GM A :=
  fun c =>
    let (r, c') := m c in
    match r with
    | Hang => (Hang, c')
    | _ =>
        let (perr, s) := PopScope (gScoper c') in
        let c'' := gset_scoper c' s in
        match perr, r with
        | None, _ => (r, c'')
        | Some pe, Err e => (Err (e ++ newline ++ pe)%string, c'')
        | Some pe, Ok _ => (Err pe, c'')
        | Some _, r => (r, c'')
        end
    end.

(* The Encoding methods of predicates and extensions use the manager only through
   CNFVar: Atoms.atom_enc reads the scoper and the model (the manager in its
   argument is not looked at, Managers.atom_enc_vm). *)
Definition genc_atom (a : atom) : GM CNF :=
  fun c =>
    match atom_enc (mkCtx (gScoper c) (mkVarman 0 []) (gModel c)) a with
    | Ok (ABool b) => (Ok (if b then TrueCNF else FalseCNF), c)
    | Ok (AEmit es) =>
        let (f, w) := grun_emits (gVM c) es in (Ok f, gset_vm c w)
    | Err e => (Err e, c)
    | Panic => (Panic, c)
    | Hang => (Hang, c)
    end.

(* logop/with_var.go:60-104 *)
Definition gencodeI (v : QVar) : GM CNF :=
  gbind (g_ScopeVar v) (fun v c =>
    if v_Exists X (v, 0, BOT) (gVM c) then (Ok TrueCNF, c)
    else
      let (f, w) := grun_emits (gVM c) (withvar_emits (Z.of_nat (Dim (gModel c))) v) in
      (Ok f, gset_vm c w)).

(* logop/not.go:45-48 *)
Definition g_Negate (f : CNF) : GM CNF :=
  gbind g_TopV (fun tv =>
  let g := Negate f (Some tv) in
  gbind (g_UpdateTopV (TopV g)) (fun _ => gret g)).

(* logop/forallguarded.go:184-197 *)
Fixpoint gforall_loop (fuel : nat) (body : GM CNF) (it : iter) (i : Z) (acc : CNF) : GM CNF :=
  match fuel with
  | O => glift Hang
  | S f =>
      gbind (glift (Next it)) (fun r =>
      let '(more, it) := r in
      if (more : bool) then
        gbind (g_SetScope i (it_t it)) (fun _ =>
        gbind body (fun icnf =>
        gforall_loop f body it (i + 1) (Conjunction acc icnf)))
      else gret acc)
  end.

(* As Logop.enc. *)
Fixpoint genc (q : query) : GM CNF :=
  match q with
  | QNil => glift Panic
  | QAtom a => genc_atom a
  | QNot q =>
      gwrap "Not"
        (if is_nil q then gfail nil_child_err
         else gbind (genc q) g_Negate)
  | QAnd q1 q2 =>
      gwrap "And"
        (if is_nil q1 then gfail (nil_child_err ++ " (1)")%string
         else if is_nil q2 then gfail (nil_child_err ++ " (2)")%string
         else
           gbind (gwrap "Q1" (genc q1)) (fun f1 =>
           gbind (gwrap "Q2" (genc q2)) (fun f2 =>
           gret (Conjunction f1 f2))))
  | QOr q1 q2 =>
      gwrap "Or"
        (if is_nil q1 then gfail (nil_child_err ++ " (1)")%string
         else if is_nil q2 then gfail (nil_child_err ++ " (2)")%string
         else
           gbind (gwrap "Q1" (genc q1)) (fun f1 =>
           gbind (gwrap "Q2" (genc q2)) (fun f2 =>
           gbind (g_Negate f1) (fun g1 =>
           gbind (g_Negate f2) (fun g2 =>
           g_Negate (Conjunction g1 g2))))))
  | QWith v q =>
      gwrap "WithVar"
        (if is_nil q then gfail nil_child_err
         else
           gbind (g_AddVar v) (fun _ =>
           gbind (gencodeI v) (fun fi =>
           gbind (genc q) (fun f =>
           gret (Conjunction fi f)))))
  | QAll c q =>
      gwrap "ForAllGuarded"
        (if is_nil q then gfail nil_child_err
         else
           gbind (g_AddScope (cID c)) (fun _ =>
           gdefer_PopScope
             (fun cx =>
                (gbind (glift (newNodeAsValuesIter (Dim (gModel cx)) (Nodes (gModel cx)))) (fun it =>
                 gforall_loop (forall_fuel (Nodes (gModel cx))) (genc q) it 0 TrueCNF)) cx)))
  end.
End Enc.
Arguments mkGctx {V}. Arguments gScoper {V}. Arguments gVM {V}. Arguments gModel {V}.
Arguments galloc_vars {V}. Arguments galloc_clause {V}. Arguments galloc_clauses {V}. Arguments grun_emit {V}. Arguments grun_emits {V}.
Arguments gret {V A}. Arguments gfail {V A}. Arguments glift {V A}. Arguments gbind {V A B}. Arguments gwrap {V A}. Arguments gset_scoper {V}. Arguments gset_vm {V}.
Arguments g_AddVar {V}. Arguments g_ScopeVar {V}. Arguments g_AddScope {V}. Arguments g_SetScope {V}. Arguments g_TopV {V}. Arguments g_UpdateTopV {V}.
Arguments gdefer_PopScope {V A}. Arguments genc_atom {V}. Arguments gencodeI {V}. Arguments g_Negate {V}. Arguments gforall_loop {V}. Arguments genc {V}.

Lemma atom_enc_vm : forall s vm vm' m a, atom_enc (mkCtx s vm m) a = atom_enc (mkCtx s vm' m) a.
Proof. intros s vm vm' m a. destruct a; reflexivity. Qed.
