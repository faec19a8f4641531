(* Model of compute/*.go.

   The operating system is an environment: which temporary files can be
   created, which files can be written, and what the solver binary does on a
   file.  The k-th run of the solver may behave differently from the others
   (e_run takes the number of runs so far), so nothing is assumed about
   determinism. *)
From Verif Require Import GoBase Cnf Query Walk Atoms Logop.
Local Open Scope Z_scope.

(* What exec.Cmd.Run can end in: the process ran and exited with a code (-1:
   killed by a signal), or it could not be run. *)
Inductive run_result :=
| RunExit (code : Z) (out errout : string)
| RunFail (e : string).

Record env := mkEnv
  { e_tmp : nat -> bool;              (* k-th Step: does os.CreateTemp succeed *)
    e_create : nat -> bool;           (* k-th Step: does os.Create succeed *)
    e_write : nat -> nat -> bool;     (* k-th Step: does its i-th write succeed *)
    e_run : nat -> string -> run_result; (* k-th Step: the solver on the file *)
    e_opttmp : bool }.                (* os.CreateTemp of ComputeOptim *)

(* compute/solver.go:38-41; [bs_calls] counts calls of Step and only serves to
   index the environment. *)
Record solver := mkSolver { bs_output : string; bs_calls : nat }.

(* Outcome of Step; UnsatError is kept apart from other errors because callers
   compare against that sentinel. *)
Inductive sres := SSat | SUnsat | SErr (e : string) | SPanic | SHang.

Definition tmp_err : string := "cannot create temporary file".
Definition no_code_err : string := "Solver exit code could not be recovered".

(* compute/solver.go:96-118 *)
Definition runSolver (r : run_result) : res (Z * string) :=
  match r with
  | RunFail e => Err e
  | RunExit code out errout =>
      if code =? 0 then Err no_code_err
      else if negb (code =? 10) && negb (code =? 20) then Err errout
      else Ok (code, out)
  end.

(* compute/solver.go:56-92 *)
Definition Step (E : env) (q : query) (s : solver) (c : ctx)
  : sres * solver * ctx :=
  let k := bs_calls s in
  let s := mkSolver (bs_output s) (S k) in
  if negb (e_tmp E k) then (SErr tmp_err, s, c)
  else
    match enc q c with
    | (Err e, c) => (SErr e, s, c)
    | (Panic, c) => (SPanic, s, c)
    | (Hang, c) => (SHang, s, c)
    | (Ok f, c) =>
        match ToFile (e_create E k) (e_write E k) f with
        | Err e => (SErr e, s, c)
        | Panic => (SPanic, s, c)
        | Hang => (SHang, s, c)
        | Ok file =>
            match runSolver (e_run E k file) with
            | Err e => (SErr e, s, c)
            | Panic => (SPanic, s, c)
            | Hang => (SHang, s, c)
            | Ok (code, out) =>
                if code =? 20 then (SUnsat, s, c)
                else (SSat, mkSolver out (S k), c)
            end
        end
    end.

(* compute/solver.go:196-201 *)
Definition iAbs (v : Z) : Z := if 0 <? v then v else - v.

(* compute/solver.go:183-193: the set of CNF variables of v *)
Definition variableFilter (vm : varman) (d : nat) (v : QVar) : list Z * varman :=
  fold_left
    (fun acc i =>
       let '(f, vm) := acc in
       let (b, vm) := CNFVar vm (v, i, BOT) in
       let (z, vm) := CNFVar vm (v, i, ZERO) in
       let (o, vm) := CNFVar vm (v, i, ONE) in
       (f ++ [b; z; o], vm))
    (zrange 0 (Z.of_nat d)) ([], vm).

(* Go map[int]bool: newest binding first; a missing key reads false. *)
Definition bmap := list (Z * bool).
Fixpoint bget (m : bmap) (k : Z) : bool :=
  match m with
  | [] => false
  | (k', b) :: r => if k' =? k then b else bget r k
  end.

(* compute/solver.go:152-161 *)
Fixpoint parse_tokens (flt : list Z) (toks : list string) (m : bmap) : res bmap :=
  match toks with
  | [] => Ok m
  | t :: r =>
      rdo val <- atoi t ;;
      let absVal := iAbs val in
      let m := if existsb (Z.eqb absVal) flt then (absVal, 0 <? val) :: m else m in
      parse_tokens flt r m
  end.

(* line[2:]; a panic when the line has fewer than 2 bytes *)
Definition drop2 (line : string) : res string :=
  match line with
  | String _ (String _ r) => Ok r
  | _ => Panic
  end.

(* compute/solver.go:148-162; 118 is 'v' *)
Fixpoint parse_lines (flt : list Z) (lines : list string) (m : bmap) : res bmap :=
  match lines with
  | [] => Ok m
  | line :: r =>
      match line with
      | EmptyString => parse_lines flt r m
      | String a _ =>
          if Ascii.eqb a "v"%char then
            rdo body <- drop2 line ;;
            rdo m <- parse_tokens flt (split_on sp body) m ;;
            parse_lines flt r m
          else parse_lines flt r m
      end
  end.

(* compute/solver.go:164-177 *)
Definition read_value (vm : varman) (d : nat) (v : QVar) (m : bmap)
  : list FeatV * varman :=
  fold_left
    (fun acc i =>
       let '(val, vm) := acc in
       let (b, vm) := CNFVar vm (v, i, BOT) in
       if bget m b then (val ++ [BOT], vm)
       else
         let (o, vm) := CNFVar vm (v, i, ONE) in
         if bget m o then (val ++ [ONE], vm)
         else
           let (z, vm) := CNFVar vm (v, i, ZERO) in
           if bget m z then (val ++ [ZERO], vm) else (val, vm))
    (zrange 0 (Z.of_nat d)) ([], vm).

(* compute/solver.go:139-180 *)
Definition varValueFromBytes (out : string) (v : QVar) (c : ctx)
  : res QConst * ctx :=
  let d := Dim (cModel c) in
  let (flt, vm) := variableFilter (cVM c) d v in
  match parse_lines flt (split_on nl out) [] with
  | Err e => (Err e, set_vm c vm)
  | Panic => (Panic, set_vm c vm)
  | Hang => (Hang, set_vm c vm)
  | Ok m =>
      let (val, vm) := read_value vm d v m in
      (Ok (mkQConst "" val), set_vm c vm)
  end.

(* compute/solver.go:120-135 *)
Fixpoint Values (out : string) (vars : list QVar) (c : ctx)
  : res (list QConst) * ctx :=
  match vars with
  | [] => (Ok [], c)
  | v :: r =>
      match varValueFromBytes out v c with
      | (Ok k, c) =>
          match Values out r c with
          | (Ok ks, c) => (Ok (k :: ks), c)
          | other => other
          end
      | (Err e, c) => (Err e, c)
      | (Panic, c) => (Panic, c)
      | (Hang, c) => (Hang, c)
      end
  end.

(* ---- compute/optimum.go ---- *)

(* compute/optimum.go:13-20 *)
Record OptOutput := mkOpt { oFound : bool; oValue : QConst; oCalls : Z }.
Definition opt_zero : OptOutput := mkOpt false (mkQConst "" []) 0.

(* compute/optimum.go:67-93.  [fuel] bounds the number of turns. *)
Fixpoint opt_loop (fuel : nat) (E : env) (fg : QVar -> query)
    (og : QVar -> QConst -> query) (v : QVar) (s : solver) (c : ctx) (steps : Z)
  : res OptOutput * solver * ctx :=
  match fuel with
  | O => (Hang, s, c)
  | S f =>
      let steps := steps + 1 in
      match Values (bs_output s) [v] c with
      | (Err e, c) => (Err e, s, c)
      | (Panic, c) => (Panic, s, c)
      | (Hang, c) => (Hang, s, c)
      | (Ok [], c) => (Panic, s, c)
      | (Ok (bm :: _), c) =>
          let c := CtxReset c in
          match Step E (QWith v (QAnd (fg v) (og v bm))) s c with
          | (SSat, s, c) => opt_loop f E fg og v s c steps
          | (SUnsat, s, c) => (Ok (mkOpt true bm steps), s, c)
          | (SErr e, s, c) => (Err e, s, c)
          | (SPanic, s, c) => (Panic, s, c)
          | (SHang, s, c) => (Hang, s, c)
          end
      end
  end.

(* compute/optimum.go:39-96 *)
Definition ComputeOptim (fuel : nat) (E : env) (fg : QVar -> query)
    (og : QVar -> QConst -> query) (v : QVar) (c : ctx) (s : solver)
  : res OptOutput * solver * ctx :=
  if negb (e_opttmp E) then (Ok opt_zero, s, c)
  else
    match Step E (QWith v (fg v)) s c with
    | (SSat, s, c) => opt_loop fuel E fg og v s c 1
    | (SUnsat, s, c) => (Ok (mkOpt false (mkQConst "" []) 1), s, c)
    | (SErr e, s, c) => (Err e, s, c)
    | (SPanic, s, c) => (Panic, s, c)
    | (SHang, s, c) => (Hang, s, c)
    end.

(* ---- compute/boolcomb.go ---- *)

(* compute/boolcomb.go:12-63; an element may be nil, as in the slices of interfaces. *)
Inductive comb :=
| CNil
| CAtom (q : query) (negated : bool)
| CAnd (l : list comb)
| COr (l : list comb).

(* compute/boolcomb.go:20-33, 38-51 and 65-79 *)
Fixpoint CombSat (E : env) (k : comb) (s : solver) (c : ctx)
  : res bool * solver * ctx :=
  match k with
  | CNil => (Panic, s, c) (* a method of a nil interface *)
  | CAtom q negated =>
      match Step E q s c with
      | (SSat, s, c) => (Ok (negb negated), s, c)
      | (SUnsat, s, c) => (Ok negated, s, c)
      | (SErr e, s, c) => (Err e, s, c)
      | (SPanic, s, c) => (Panic, s, c)
      | (SHang, s, c) => (Hang, s, c)
      end
  | CAnd l =>
      (fix go (l : list comb) (s : solver) (c : ctx) {struct l} :=
         match l with
         | [] => (Ok true, s, c)
         | e :: r =>
             match CombSat E e s c with
             | (Ok true, s, c) => go r s c
             | other => other
             end
         end) l s c
  | COr l =>
      (fix go (l : list comb) (s : solver) (c : ctx) {struct l} :=
         match l with
         | [] => (Ok false, s, c)
         | e :: r =>
             match CombSat E e s c with
             | (Ok false, s, c) => go r s c
             | other => other
             end
         end) l s c
  end.
