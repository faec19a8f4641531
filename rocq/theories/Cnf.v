(* Model of cnf/cnf.go on immutable lists.  (CnfHeap.v models the same code on
   slices with shared backing arrays.) *)
From Verif Require Import GoBase.
Local Open Scope Z_scope.

(* cnf/cnf.go:27 *)
Definition clause := list Z.

(* cnf/cnf.go:30-37 *)
Record CNF := mkCNF { tv : Z; sClauses : list clause; cClauses : list clause }.

(* cnf/cnf.go:42 *)
Definition NegClauses : list clause := [[]].
(* cnf/cnf.go:44; also the zero value CNF{} *)
Definition TrueCNF : CNF := mkCNF 0 [] [].
(* cnf/cnf.go:46 *)
Definition FalseCNF : CNF := mkCNF 0 NegClauses [].

(* cnf/cnf.go:309-314 *)
Definition absInt (v : Z) : Z := if 0 <? v then v else - v.

(* cnf/cnf.go:317-322 *)
Definition maxInt (v1 v2 : Z) : Z := if v2 <? v1 then v1 else v2.

(* cnf/cnf.go:295-306 *)
Definition maxVar (clauses : list clause) : Z :=
  fold_left
    (fun topv cl =>
       fold_left
         (fun topv v => if topv <? absInt v then absInt v else topv) cl topv)
    clauses 0.

(* cnf/cnf.go:50-54 *)
Definition FromClauses (clauses : list clause) : CNF :=
  mkCNF (maxVar clauses) clauses [].

(* cnf/cnf.go:58-60 *)
Definition TopV (c : CNF) : Z := tv c.

(* cnf/cnf.go:172-179 *)
Definition AppendSemantics (c : CNF) (clauses : list clause) : CNF :=
  mkCNF (maxInt (tv c) (maxVar clauses)) (sClauses c ++ clauses) (cClauses c).

(* cnf/cnf.go:182-189 *)
Definition AppendConsistency (c : CNF) (clauses : list clause) : CNF :=
  mkCNF (maxInt (tv c) (maxVar clauses)) (sClauses c) (cClauses c ++ clauses).

(* cnf/cnf.go:164-169 *)
Definition Conjunction (c oc : CNF) : CNF :=
  let rcnf := AppendSemantics c (sClauses oc) in
  let rcnf := mkCNF (tv rcnf) (sClauses rcnf) (cClauses c) in
  AppendConsistency rcnf (cClauses oc).

(* cnf/cnf.go:272-279 *)
Definition hasEmptySemanticClause (c : CNF) : bool :=
  existsb (fun cl => match cl with [] => true | _ => false end) (sClauses c).

(* cnf/cnf.go:109-133, the loop of tseytinNegation.  [inl tv]: the early return
   of lines 113-117; [inr (tv, clauses, enclits)]: the loop ran to its end. *)
Fixpoint tseytin_loop (scls : list clause) (tv : Z) (clauses : list clause)
    (enclits : clause) : Z + (Z * list clause * clause) :=
  match scls with
  | [] => inr (tv, clauses, enclits)
  | [] :: _ => inl tv
  | [l] :: rest => tseytin_loop rest tv clauses (enclits ++ [- l])
  | cl :: rest =>
      let tv := tv + 1 in
      let auxv := tv in
      let clauses := clauses ++ map (fun lit => [- lit; - auxv]) cl in
      let clauses := clauses ++ [cl ++ [auxv]] in
      tseytin_loop rest tv clauses (enclits ++ [auxv])
  end.

(* cnf/cnf.go:150-160 *)
Definition addNegationIFFClauses (c : CNF) (enclits : clause) : CNF :=
  let auxv := tv c + 1 in
  mkCNF auxv [[auxv]]
    ((cClauses c ++ map (fun lit => [- lit; auxv]) enclits)
       ++ [enclits ++ [- auxv]]).

(* cnf/cnf.go:105-146 *)
Definition tseytinNegation (c : CNF) (tv0 : Z) : CNF :=
  match tseytin_loop (sClauses c) tv0 [] [] with
  | inl tv' => mkCNF tv' [] (cClauses c)
  | inr (tv', clauses, enclits) =>
      let c' := mkCNF tv' (sClauses c) (cClauses c ++ clauses) in
      if (length enclits =? 1)%nat then mkCNF tv' [enclits] (cClauses c')
      else addNegationIFFClauses c' enclits
  end.

(* cnf/cnf.go:66-101; the optional argument is an option. *)
Definition Negate (c : CNF) (opt_topv : option Z) : CNF :=
  let topv := match opt_topv with
              | Some k => maxInt (tv c) k
              | None => tv c
              end in
  match sClauses c with
  | [] =>
      let rcnf := AppendSemantics c [[]] in
      mkCNF topv (sClauses rcnf) (cClauses rcnf)
  | _ =>
      if hasEmptySemanticClause c then mkCNF topv [] (cClauses c)
      else tseytinNegation (mkCNF topv (sClauses c) (cClauses c)) topv
  end.

(* cnf/cnf.go:252-254 *)
Definition TriviallyTrue (c : CNF) : bool :=
  ((length (sClauses c) =? 0)%nat && (length (cClauses c) =? 0)%nat)%bool.

(* cnf/cnf.go:258-270 *)
Definition TriviallyFalse (c : CNF) : bool :=
  let empty := existsb (fun cl : clause => (length cl =? 0)%nat) in
  if empty (sClauses c) then true
  else if empty (cClauses c) then true
  else false.

Local Open Scope string_scope.

(* cnf/cnf.go:282-291 *)
Definition clauseToDIMACS (cl : clause) : string :=
  fold_left (fun s v => s ++ itoa v ++ " ") cl "" ++ "0".

Definition newline : string := String nl EmptyString.

(* cnf/cnf.go:193-197 *)
Definition dimacs_header (c : CNF) : string :=
  "p cnf " ++ itoa (tv c) ++ " " ++
  itoa (Z.of_nat (length (sClauses c)) + Z.of_nat (length (cClauses c)))
  ++ newline.

(* cnf/cnf.go:192-208 *)
Definition ToBytes (c : CNF) : string :=
  let b := dimacs_header c in
  let b := fold_left (fun b cl => b ++ clauseToDIMACS cl ++ newline)
             (sClauses c) b in
  fold_left (fun b cl => b ++ clauseToDIMACS cl ++ newline) (cClauses c) b.

(* cnf/cnf.go:226-240: the writes of a loop over clauses, the k-th WriteString
   succeeding iff [wok k].  [inl]: all succeeded (next index, file so far);
   [inr]: a write failed.  A failed write is taken to leave the file
   unspecified, so only the error is returned. *)
Fixpoint write_clauses (wok : nat -> bool) (k : nat) (f : string)
    (cls : list clause) : (nat * string) + unit :=
  match cls with
  | [] => inl (k, f)
  | cl :: r =>
      if wok k then write_clauses wok (S k) (f ++ clauseToDIMACS cl ++ newline) r
      else inr tt
  end.

Definition io_error : string := "i/o error".

(* cnf/cnf.go:211-243: [create]: does os.Create succeed; [wok k]: does the k-th
   WriteString succeed.  The result is the file's contents when nil is
   returned. *)
Definition ToFile (create : bool) (wok : nat -> bool) (c : CNF) : res string :=
  if create then
    if wok 0%nat then
      match write_clauses wok 1 (dimacs_header c) (sClauses c) with
      | inr _ => Err io_error
      | inl (k, f) =>
          match write_clauses wok k f (cClauses c) with
          | inr _ => Err io_error
          | inl (_, f) => Ok f
          end
      end
    else Err io_error
  else Err io_error.
