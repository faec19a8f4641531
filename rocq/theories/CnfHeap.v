(* cnf/cnf.go again, now on Go slices: a slice is a reference to a backing array
   and a length, append writes into the array when there is room and otherwise
   moves to a new one, and copies of a slice share their array.  Encoding a
   query is repeated on top of it. *)
From Verif Require Import GoBase Cnf Query Walk Atoms Logop.
Local Open Scope Z_scope.
Local Open Scope list_scope.

(* The slices of this code all start at index 0 of their array (nothing is
   resliced); the capacity is the length of the array. *)
Record slice := mkSl { s_arr : nat; s_len : nat }.

Section Store.
Context {A : Type} (dflt : A).
Definition array (st : list (list A)) (n : nat) : list A := nth n st [].
Definition cap (st : list (list A)) (s : slice) : nat := length (array st (s_arr s)).
Definition sread (st : list (list A)) (s : slice) : list A := firstn (s_len s) (array st (s_arr s)).
(* a[n], a[n+1], ... = xs... *)
Definition overwrite (a : list A) (n : nat) (xs : list A) : list A := firstn n a ++ xs ++ skipn (n + length xs) a.
(* A new array holding xs, with room for [spare] more. *)
Definition salloc (st : list (list A)) (xs : list A) (spare : nat) : slice * list (list A) :=
  (mkSl (length st) (length xs), st ++ [xs ++ repeat dflt spare]).
(* append(s, xs...) *)
Definition sappend (st : list (list A)) (s : slice) (xs : list A) (spare : nat) : slice * list (list A) :=
  if (s_len s + length xs <=? cap st s)%nat
  then (mkSl (s_arr s) (s_len s + length xs), list_set st (s_arr s) (overwrite (array st (s_arr s)) (s_len s) xs))
  else salloc st (sread st s ++ xs) spare.
End Store.

(* All []int arrays and all []Clause arrays of the program. *)
Record heap := mkHeap { ints : list (list Z); outs : list (list slice) }.

Definition nil_slice : slice := mkSl 0 0.
(* The program's heap at its start: a place for nil (no capacity) and
   NegClauses = []Clause{{}} (cnf/cnf.go:42). *)
Definition start_heap : heap := mkHeap [[]] [[]; [nil_slice]].

(* cnf/cnf.go:30-37 *)
Record hCNF := mkH { h_tv : Z; h_s : slice; h_c : slice }.

Definition clauses_of (H : heap) (s : slice) : list clause := map (sread (ints H)) (sread (outs H) s).
(* What one sees by looking through all references. *)
Definition hread (H : heap) (c : hCNF) : CNF := mkCNF (h_tv c) (clauses_of H (h_s c)) (clauses_of H (h_c c)).

(* cnf/cnf.go:44, cnf/cnf.go:46 *)
Definition hTrue : hCNF := mkH 0 nil_slice nil_slice.
Definition hFalse : hCNF := mkH 0 (mkSl 1 1) nil_slice.

Section Heap.
(* The spare capacity of new arrays: anything, depending on anything (Go leaves
   it open how much append grows a slice). *)
Variable spare : heap -> nat.

Definition new_ints (H : heap) (xs : list Z) (n : nat) : slice * heap :=
  let (s, st) := salloc 0 (ints H) xs n in (s, mkHeap st (outs H)).
Definition new_outs (H : heap) (xs : list slice) (n : nat) : slice * heap :=
  let (s, st) := salloc nil_slice (outs H) xs n in (s, mkHeap (ints H) st).
Definition append_ints (H : heap) (s : slice) (xs : list Z) : slice * heap :=
  let (s, st) := sappend 0 (ints H) s xs (spare H) in (s, mkHeap st (outs H)).
Definition append_outs (H : heap) (s : slice) (xs : list slice) : slice * heap :=
  let (s, st) := sappend nil_slice (outs H) s xs (spare H) in (s, mkHeap (ints H) st).

(* cnf/cnf.go:50-54 *)
Definition hFromClauses (H : heap) (s : slice) : hCNF := mkH (maxVar (clauses_of H s)) s nil_slice.

(* cnf/cnf.go:172-179; [s]: the slice passed as clauses... *)
Definition hAppendSemantics (c : hCNF) (s : slice) (H : heap) : hCNF * heap :=
  let topv := maxInt (h_tv c) (maxVar (clauses_of H s)) in
  let (r, H) := append_outs H (h_s c) (sread (outs H) s) in
  (mkH topv r (h_c c), H).

(* cnf/cnf.go:182-189 *)
Definition hAppendConsistency (c : hCNF) (s : slice) (H : heap) : hCNF * heap :=
  let topv := maxInt (h_tv c) (maxVar (clauses_of H s)) in
  let (r, H) := append_outs H (h_c c) (sread (outs H) s) in
  (mkH topv (h_s c) r, H).

(* cnf/cnf.go:164-169 *)
Definition hConjunction (c oc : hCNF) (H : heap) : hCNF * heap :=
  let (rcnf, H) := hAppendSemantics c (h_s oc) H in
  let rcnf := mkH (h_tv rcnf) (h_s rcnf) (h_c c) in
  hAppendConsistency rcnf (h_c oc) H.

(* cnf/cnf.go:124-127 and 154-156: clauses = append(clauses, Clause{f lit}) *)
Fixpoint append_each (f : Z -> clause) (lits : list Z) (clauses : slice) (H : heap) : slice * heap :=
  match lits with
  | [] => (clauses, H)
  | lit :: r =>
      let (cl, H) := new_ints H (f lit) 0 in
      let (clauses, H) := append_outs H clauses [cl] in
      append_each f r clauses H
  end.

(* cnf/cnf.go:109-133 *)
Fixpoint htseytin_loop (scls : list slice) (tv : Z) (clauses enclits : slice) (H : heap)
  : (Z + (Z * slice * slice)) * heap :=
  match scls with
  | [] => (inr (tv, clauses, enclits), H)
  | cl :: rest =>
      match sread (ints H) cl with
      | [] => (inl tv, H)
      | [l] =>
          let (enclits, H) := append_ints H enclits [- l] in
          htseytin_loop rest tv clauses enclits H
      | lits =>
          let tv := tv + 1 in
          let auxv := tv in
          let (clauses, H) := append_each (fun lit => [- lit; - auxv]) lits clauses H in
          let (ext, H) := append_ints H cl [auxv] in
          let (clauses, H) := append_outs H clauses [ext] in
          let (enclits, H) := append_ints H enclits [auxv] in
          htseytin_loop rest tv clauses enclits H
      end
  end.

(* cnf/cnf.go:150-160 *)
Definition haddNegationIFFClauses (c : hCNF) (enclits : slice) (H : heap) : hCNF * heap :=
  let auxv := h_tv c + 1 in
  let (cc, H) := append_each (fun lit => [- lit; auxv]) (sread (ints H) enclits) (h_c c) H in
  let (ext, H) := append_ints H enclits [- auxv] in
  let (cc, H) := append_outs H cc [ext] in
  let (u, H) := new_ints H [auxv] 0 in
  let (sc, H) := new_outs H [u] 0 in
  (mkH auxv sc cc, H).

(* cnf/cnf.go:105-146 *)
Definition htseytinNegation (c : hCNF) (tv0 : Z) (H : heap) : hCNF * heap :=
  let (clauses, H) := new_outs H [] 0 in
  let (enclits, H) := new_ints H [] 0 in
  let (r, H) := htseytin_loop (sread (outs H) (h_s c)) tv0 clauses enclits H in
  match r with
  | inl tv' => (mkH tv' nil_slice (h_c c), H)
  | inr (tv', clauses, enclits) =>
      let (cc, H) := append_outs H (h_c c) (sread (outs H) clauses) in
      if (s_len enclits =? 1)%nat then
        let (sc, H) := new_outs H [enclits] 0 in
        (mkH tv' sc cc, H)
      else haddNegationIFFClauses (mkH tv' (h_s c) cc) enclits H
  end.

(* cnf/cnf.go:66-101 *)
Definition hNegate (c : hCNF) (opt_topv : option Z) (H : heap) : hCNF * heap :=
  let topv := match opt_topv with Some k => maxInt (h_tv c) k | None => h_tv c end in
  if (s_len (h_s c) =? 0)%nat then
    let (e, H) := new_ints H [] 0 in
    let (a, H) := new_outs H [e] 0 in
    let (r, H) := hAppendSemantics c a H in
    (mkH topv (h_s r) (h_c r), H)
  else if existsb (fun cl => (s_len cl =? 0)%nat) (sread (outs H) (h_s c)) then
    (mkH topv nil_slice (h_c c), H)
  else htseytinNegation (mkH topv (h_s c) (h_c c)) topv H.

(* The clauses a component builds for one call of FromClauses,
   AppendSemantics or AppendConsistency: every clause is a literal or grown by
   append, and so is the slice holding them. *)
Fixpoint build_each (cls : list clause) (H : heap) : list slice * heap :=
  match cls with
  | [] => ([], H)
  | cl :: r =>
      let (s, H) := new_ints H cl (spare H) in
      let (ss, H) := build_each r H in
      (s :: ss, H)
  end.
Definition build (cls : list clause) (H : heap) : slice * heap :=
  let (ss, H) := build_each cls H in new_outs H ss (spare H).

(* Atoms.run_emits *)
Definition hrun_emit (cv : hCNF * varman * heap) (e : emit) : hCNF * varman * heap :=
  let '(c, vm, H) := cv in
  match e with
  | EAlloc l => (c, alloc_vars vm l, H)
  | EFrom cls =>
      let (cls, vm) := alloc_clauses vm cls in
      let (s, H) := build cls H in (hFromClauses H s, vm, H)
  | ESem cls =>
      let (cls, vm) := alloc_clauses vm cls in
      let (s, H) := build cls H in
      let (c, H) := hAppendSemantics c s H in (c, vm, H)
  | ECons cls =>
      let (cls, vm) := alloc_clauses vm cls in
      let (s, H) := build cls H in
      let (c, H) := hAppendConsistency c s H in (c, vm, H)
  end.
Definition hrun_emits (vm : varman) (es : list emit) (H : heap) : hCNF * varman * heap :=
  fold_left hrun_emit es (hTrue, vm, H).

(* ---- Logop.enc on the heap ---- *)

Definition MH (A : Type) : Type := ctx -> heap -> res A * ctx * heap.
Definition hret {A} (a : A) : MH A := fun c H => (Ok a, c, H).
(* a computation that does not touch the heap *)
Definition hM {A} (m : M A) : MH A := fun c H => let (r, c) := m c in (r, c, H).
Definition hbind {A B} (m : MH A) (f : A -> MH B) : MH B :=
  fun c H => match m c H with
             | (Ok a, c, H) => f a c H
             | (Err e, c, H) => (Err e, c, H)
             | (Panic, c, H) => (Panic, c, H)
             | (Hang, c, H) => (Hang, c, H)
             end.
Notation "'hdo' x <- m ;; k" := (hbind m (fun x => k))
  (at level 200, x pattern, m at level 100, k at level 200).
(* a method of CNF *)
Definition hop {A} (f : heap -> A * heap) : MH A := fun c H => let (a, H) := f H in (Ok a, c, H).
Definition hwrap {A} (p : string) (m : MH A) : MH A :=
  fun c H => match m c H with
             | (Err e, c, H) => (Err (p ++ ": " ++ e)%string, c, H)
             | r => r
             end.
Definition hdefer_PopScope {A} (m : MH A) : MH A :=
  fun c H =>
    let '(r, c', H) := m c H in
    let (r', c'') := defer_PopScope (lift r) c' in
    (r', c'', H).

Definition henc_atom (a : atom) : MH hCNF :=
  fun c H =>
    match atom_enc c a with
    | Ok (ABool b) => (Ok (if b then hTrue else hFalse), c, H)
    | Ok (AEmit es) =>
        let '(f, vm, H) := hrun_emits (cVM c) es H in (Ok f, set_vm c vm, H)
    | Err e => (Err e, c, H)
    | Panic => (Panic, c, H)
    | Hang => (Hang, c, H)
    end.

(* logop/with_var.go:60-104 *)
Definition hencodeI (v : QVar) : MH hCNF :=
  hdo v <- hM (m_ScopeVar v) ;;
  fun c H =>
    if CNFVarExists (cVM c) (v, 0, BOT) then (Ok hTrue, c, H)
    else
      let '(f, vm, H) := hrun_emits (cVM c)
                           (withvar_emits (Z.of_nat (Dim (cModel c))) v) H in
      (Ok f, set_vm c vm, H).

(* logop/not.go:45-48 *)
Definition hm_Negate (f : hCNF) : MH hCNF :=
  hdo tv <- hM m_TopV ;;
  hdo g <- hop (hNegate f (Some tv)) ;;
  hdo _ <- hM (m_UpdateTopV (h_tv g)) ;;
  hret g.

(* logop/forallguarded.go:184-197 *)
Fixpoint hforall_loop (fuel : nat) (body : MH hCNF) (it : iter) (i : Z) (acc : hCNF) : MH hCNF :=
  match fuel with
  | O => hM (lift Hang)
  | S f =>
      hdo r <- hM (lift (Next it)) ;;
      let '(more, it) := r in
      if (more : bool) then
        hdo _ <- hM (m_SetScope i (it_t it)) ;;
        hdo icnf <- body ;;
        hdo acc <- hop (hConjunction acc icnf) ;;
        hforall_loop f body it (i + 1) acc
      else hret acc
  end.

Fixpoint henc (q : query) : MH hCNF :=
  match q with
  | QNil => hM (lift Panic)
  | QAtom a => henc_atom a
  (* logop/not.go:20-49 *)
  | QNot q =>
      hwrap "Not"
        (if is_nil q then hM (fail nil_child_err)
         else hdo f <- henc q ;; hm_Negate f)
  (* logop/and.go:23-57 *)
  | QAnd q1 q2 =>
      hwrap "And"
        (if is_nil q1 then hM (fail (nil_child_err ++ " (1)")%string)
         else if is_nil q2 then hM (fail (nil_child_err ++ " (2)")%string)
         else
           hdo f1 <- hwrap "Q1" (henc q1) ;;
           hdo f2 <- hwrap "Q2" (henc q2) ;;
           hop (hConjunction f1 f2))
  (* logop/or.go:23-71 *)
  | QOr q1 q2 =>
      hwrap "Or"
        (if is_nil q1 then hM (fail (nil_child_err ++ " (1)")%string)
         else if is_nil q2 then hM (fail (nil_child_err ++ " (2)")%string)
         else
           hdo f1 <- hwrap "Q1" (henc q1) ;;
           hdo f2 <- hwrap "Q2" (henc q2) ;;
           hdo g1 <- hm_Negate f1 ;;
           hdo g2 <- hm_Negate f2 ;;
           hdo g <- hop (hConjunction g1 g2) ;;
           hm_Negate g)
  (* logop/with_var.go:22-56 *)
  | QWith v q =>
      hwrap "WithVar"
        (if is_nil q then hM (fail nil_child_err)
         else
           hdo _ <- hM (m_AddVar v) ;;
           hdo fi <- hencodeI v ;;
           hdo f <- henc q ;;
           hop (hConjunction fi f))
  (* logop/forallguarded.go:145-200 *)
  | QAll k q =>
      hwrap "ForAllGuarded"
        (if is_nil q then hM (fail nil_child_err)
         else
           hdo _ <- hM (m_AddScope (cID k)) ;;
           hdefer_PopScope
             (fun cx H =>
                (hdo it <- hM (lift (newNodeAsValuesIter (Dim (cModel cx))
                                       (Nodes (cModel cx)))) ;;
                 hforall_loop (forall_fuel (Nodes (cModel cx))) (henc q) it 0 hTrue)
                  cx H))
  end.
End Heap.
