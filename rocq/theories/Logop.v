(* Model of query/logop/*.go: queries as a syntax tree and their Encoding. *)
From Verif Require Import GoBase Cnf Query Walk Atoms.
Local Open Scope Z_scope.

(* A LogOpQ built from the library's types; QNil is the nil interface. *)
Inductive query :=
| QNil
| QAtom (a : atom)
| QNot (q : query)                       (* logop/not.go:12-16 *)
| QAnd (q1 q2 : query)                   (* logop/and.go:12-19 *)
| QOr (q1 q2 : query)                    (* logop/or.go:12-19 *)
| QWith (v : QVar) (q : query)           (* logop/with_var.go:12-18 *)
| QAll (c : QConst) (q : query).         (* logop/forallguarded.go:12-20 *)

Definition is_nil (q : query) : bool := match q with QNil => true | _ => false end.

(* Computations on the context. *)
Definition M (A : Type) : Type := ctx -> res A * ctx.
Definition ret {A} (a : A) : M A := fun c => (Ok a, c).
Definition fail {A} (e : string) : M A := fun c => (Err e, c).
Definition lift {A} (r : res A) : M A := fun c => (r, c).
Definition bind {A B} (m : M A) (f : A -> M B) : M B :=
  fun c => match m c with
           | (Ok a, c') => f a c'
           | (Err e, c') => (Err e, c')
           | (Panic, c') => (Panic, c')
           | (Hang, c') => (Hang, c')
           end.
Notation "'mdo' x <- m ;; k" := (bind m (fun x => k))
  (at level 200, x pattern, m at level 100, k at level 200).

(* fmt.Errorf("<p>: %w", err) *)
Definition wrap {A} (p : string) (m : M A) : M A :=
  fun c => match m c with
           | (Err e, c') => (Err (p ++ ": " ++ e)%string, c')
           | r => r
           end.

Definition set_scoper (c : ctx) (s : scoper) : ctx := mkCtx s (cVM c) (cModel c).
Definition set_vm (c : ctx) (vm : varman) : ctx := mkCtx (cScoper c) vm (cModel c).

Definition m_AddVar (v : QVar) : M unit :=
  fun c => (Ok tt, set_scoper c (AddVar (cScoper c) v)).
Definition m_ScopeVar (v : QVar) : M QVar := fun c => (ScopeVar (cScoper c) v, c).
Definition m_AddScope (t : string) : M unit :=
  fun c => (Ok tt, set_scoper c (AddScope (cScoper c) t)).
Definition m_SetScope (i : Z) (v : list FeatV) : M unit :=
  fun c => let (e, s) := SetScope (cScoper c) i v in
           (match e with Some e => Err e | None => Ok tt end, set_scoper c s).
Definition m_TopV : M Z := fun c => (Ok (vm_topv (cVM c)), c).
Definition m_UpdateTopV (v : Z) : M unit :=
  fun c => (Ok tt, set_vm c (snd (UpdateTopV (cVM c) v))).

(* Go's defer of forallguarded.go:172-176: runs after a normal return, an error
   or a panic. *)
Definition defer_PopScope {A} (m : M A) : M A :=
  fun c =>
    let (r, c') := m c in
    match r with
    | Hang => (Hang, c')
    | _ =>
        let (perr, s) := PopScope (cScoper c') in
        let c'' := set_scoper c' s in
        match perr, r with
        | None, _ => (r, c'')
        | Some pe, Err e => (Err (e ++ newline ++ pe)%string, c'')
        | Some pe, Ok _ => (Err pe, c'')
        | Some _, r => (r, c'')
        end
    end.

Definition nil_child_err : string := "Invalid encoding of nil child".
Definition nil_ctx_err : string := "Invalid encoding with nil ctx".

(* The Encoding method of a predicate or extension. *)
Definition enc_atom (a : atom) : M CNF :=
  fun c =>
    match atom_enc c a with
    | Ok (ABool b) => (Ok (if b then TrueCNF else FalseCNF), c)
    | Ok (AEmit es) =>
        let (f, vm) := run_emits (cVM c) es in (Ok f, set_vm c vm)
    | Err e => (Err e, c)
    | Panic => (Panic, c)
    | Hang => (Hang, c)
    end.

(* logop/with_var.go:60-104 after the existence check *)
Definition withvar_emits (d : Z) (v : string) : list emit :=
  ECons (map (fun i => [Lp v i ZERO; Lp v i ONE; Lp v i BOT]) (zrange 0 d))
  :: map (fun i => ECons [[Ln v i ZERO; Ln v i ONE]; [Ln v i ZERO; Ln v i BOT];
                          [Ln v i ONE; Ln v i BOT]]) (zrange 0 d).

(* logop/with_var.go:60-104 *)
Definition encodeI (v : QVar) : M CNF :=
  mdo v <- m_ScopeVar v ;;
  fun c =>
    if CNFVarExists (cVM c) (v, 0, BOT) then (Ok TrueCNF, c)
    else
      let (f, vm) := run_emits (cVM c)
                       (withvar_emits (Z.of_nat (Dim (cModel c))) v) in
      (Ok f, set_vm c vm).

(* logop/not.go:45-48 *)
Definition m_Negate (f : CNF) : M CNF :=
  mdo tv <- m_TopV ;;
  let g := Negate f (Some tv) in
  mdo _ <- m_UpdateTopV (TopV g) ;;
  ret g.

(* logop/forallguarded.go:184-197; [body] is f.Q.Encoding.  [fuel] bounds the
   number of turns. *)
Fixpoint forall_loop (fuel : nat) (body : M CNF) (it : iter) (i : Z) (acc : CNF)
  : M CNF :=
  match fuel with
  | O => lift Hang
  | S f =>
      mdo r <- lift (Next it) ;;
      let '(more, it) := r in
      if (more : bool) then
        mdo _ <- m_SetScope i (it_t it) ;;
        mdo icnf <- body ;;
        forall_loop f body it (i + 1) (Conjunction acc icnf)
      else ret acc
  end.

(* Every turn marks a node. *)
Definition forall_fuel (nodes : list node) : nat := length nodes + 1.

(* The Encoding methods with a non-nil context.  A nil query has no Encoding
   method to call: a panic (only reachable at the top of a query). *)
Fixpoint enc (q : query) : M CNF :=
  match q with
  | QNil => lift Panic
  | QAtom a => enc_atom a
  (* logop/not.go:20-49 *)
  | QNot q =>
      wrap "Not"
        (if is_nil q then fail nil_child_err
         else mdo f <- enc q ;; m_Negate f)
  (* logop/and.go:23-57 *)
  | QAnd q1 q2 =>
      wrap "And"
        (if is_nil q1 then fail (nil_child_err ++ " (1)")%string
         else if is_nil q2 then fail (nil_child_err ++ " (2)")%string
         else
           mdo f1 <- wrap "Q1" (enc q1) ;;
           mdo f2 <- wrap "Q2" (enc q2) ;;
           ret (Conjunction f1 f2))
  (* logop/or.go:23-71 *)
  | QOr q1 q2 =>
      wrap "Or"
        (if is_nil q1 then fail (nil_child_err ++ " (1)")%string
         else if is_nil q2 then fail (nil_child_err ++ " (2)")%string
         else
           mdo f1 <- wrap "Q1" (enc q1) ;;
           mdo f2 <- wrap "Q2" (enc q2) ;;
           mdo g1 <- m_Negate f1 ;;
           mdo g2 <- m_Negate f2 ;;
           m_Negate (Conjunction g1 g2))
  (* logop/with_var.go:22-56 *)
  | QWith v q =>
      wrap "WithVar"
        (if is_nil q then fail nil_child_err
         else
           mdo _ <- m_AddVar v ;;
           mdo fi <- encodeI v ;;
           mdo f <- enc q ;;
           ret (Conjunction fi f))
  (* logop/forallguarded.go:145-200 *)
  | QAll c q =>
      wrap "ForAllGuarded"
        (if is_nil q then fail nil_child_err
         else
           mdo _ <- m_AddScope (cID c) ;;
           defer_PopScope
             (fun cx =>
                (mdo it <- lift (newNodeAsValuesIter (Dim (cModel cx))
                                   (Nodes (cModel cx))) ;;
                 forall_loop (forall_fuel (Nodes (cModel cx))) (enc q) it 0 TrueCNF)
                  cx))
  end.

(* With a nil context: every component first checks its own children (logop) or
   the context (predicates and extensions). *)
Definition enc_nilctx (q : query) : res CNF :=
  match q with
  | QNil => Panic
  | QAtom _ => Err nil_ctx_err
  | QNot q => Err ("Not: " ++ (if is_nil q then nil_child_err else nil_ctx_err))
  | QAnd q1 q2 =>
      Err ("And: " ++ (if is_nil q1 then nil_child_err ++ " (1)"
                       else if is_nil q2 then nil_child_err ++ " (2)"
                       else nil_ctx_err))
  | QOr q1 q2 =>
      Err ("Or: " ++ (if is_nil q1 then nil_child_err ++ " (1)"
                      else if is_nil q2 then nil_child_err ++ " (2)"
                      else nil_ctx_err))
  | QWith _ q => Err ("WithVar: " ++ (if is_nil q then nil_child_err else nil_ctx_err))
  | QAll _ q => Err ("ForAllGuarded: " ++ (if is_nil q then nil_child_err else nil_ctx_err))
  end%string.

(* q.Encoding(ctx) for a possibly nil context. *)
Definition Encoding (q : query) (oc : option ctx) : res CNF * option ctx :=
  match oc with
  | None => (enc_nilctx q, None)
  | Some c => let (r, c') := enc q c in (r, Some c')
  end.
