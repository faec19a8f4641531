(* The part of Go that the library is written in: syntax and an interpreter.

   tools/go2coq.py prints the functions of the repository in this syntax
   (GoSource.v); the Src*.v files prove that interpreting that text gives what the
   model computes.

   Simplifications, besides those of GoBase.v and of the translator:
   - a slice is its elements (CnfHeap.v and Buffers.v treat backing arrays), a map
     is a list of pairs; iteration over a map takes the pairs as they were when
     the loop started, in the order of the list;
   - a method with a pointer receiver gets a copy of the receiver, which is copied
     back when it returns; nothing else looks at the receiver in between;
   - the operands of an assignment's left side are read after its right side;
   - an error is its message and the names of the package-level errors it wraps;
   - a goto leads forward, out of blocks;
   - functions in values are pure; those that build formulas take variables and
     constants; a function literal keeps the values, not the variables, it mentions;
   - a value of a slice type with methods is a struct with the field "[]";
   - a *os.File and a *exec.Cmd are values (no Cmd is used after it was passed on);
   - of the operating system a program sees the contents of files by name and what
     processes end in; messages of failed calls are constants. *)
From Verif Require Import GoBase Cnf.
Local Open Scope string_scope.
Local Open Scope Z_scope.
Local Open Scope list_scope.

(* ---- the operating system ---- *)

(* What running a process ends in: it ran and exited (-1: killed), or could not
   be started. *)
Inductive proc_result :=
| PExit (code : Z) (out errout : string)
| PFail (e : string).

(* [o_time]: calls of os.CreateTemp so far; [o_writes]: writes since the last
   os.Create.  What happens may depend on these, so that the same call may succeed
   once and fail later. *)
Record os := mkOs
  { o_files : list (string * string);
    o_time : nat;
    o_writes : nat;
    o_tmp : nat -> option string;             (* name of a new file, or failure *)
    o_create : nat -> bool;
    o_write : nat -> nat -> bool;
    o_exec : nat -> string -> string -> proc_result;  (* program, contents of the file *)
    o_stat : string -> option string;         (* an error, if any *)
    o_out : string }.                         (* printed so far *)

Fixpoint file_get (p : string) (l : list (string * string)) : string :=
  match l with
  | [] => EmptyString
  | (q, c) :: r => if String.eqb q p then c else file_get p r
  end.
Definition file_remove (p : string) (l : list (string * string)) :=
  filter (fun f => negb (String.eqb (fst f) p)) l.
Definition file_set (p c : string) (l : list (string * string)) :=
  (p, c) :: file_remove p l.
Definition os_files (o : os) (l : list (string * string)) : os :=
  mkOs l (o_time o) (o_writes o) (o_tmp o) (o_create o) (o_write o) (o_exec o) (o_stat o) (o_out o).
Definition os_tick (o : os) : os :=
  mkOs (o_files o) (S (o_time o)) (o_writes o) (o_tmp o) (o_create o) (o_write o)
    (o_exec o) (o_stat o) (o_out o).
Definition os_writes (o : os) (n : nat) : os :=
  mkOs (o_files o) (o_time o) n (o_tmp o) (o_create o) (o_write o) (o_exec o) (o_stat o)
    (o_out o).
Definition os_print (o : os) (s : string) : os :=
  mkOs (o_files o) (o_time o) (o_writes o) (o_tmp o) (o_create o) (o_write o) (o_exec o)
    (o_stat o) (o_out o ++ s).

(* ---- values ---- *)

(* Arguments of functions that build formulas. *)
Inductive farg := AVar (v : string) | AConst (id : string) (val : list Z).

Inductive val :=
| VInt (z : Z) | VBool (b : bool) | VStr (s : string) | VNil
| VErr (e : string) (is : list string)
| VLst (l : list val)
| VStc (t : string) (fs : list (string * val))
| VMap (m : list (val * val))
| VPtr (l : nat)
| VGen (f : list string -> string)
| VFun (f : list farg -> val)
| VSys (o : os)
| VTup (l : list val).

(* == of numbers, truth values, strings, pointers and nil, and of structs of
   these; of others (errors with errors, say) see [comparable]. *)
Definition veq0 (a b : val) : bool :=
  match a, b with
  | VInt x, VInt y => x =? y
  | VBool x, VBool y => Bool.eqb x y
  | VStr x, VStr y => String.eqb x y
  | VNil, VNil => true
  | VPtr x, VPtr y => Nat.eqb x y
  | _, _ => false
  end.
Fixpoint fields_eq (xs ys : list (string * val)) : bool :=
  match xs, ys with
  | [], [] => true
  | x :: xs', y :: ys' => veq0 (snd x) (snd y) && fields_eq xs' ys'
  | _, _ => false
  end.
Definition veq (a b : val) : bool :=
  match a, b with
  | VStc _ xs, VStc _ ys => fields_eq xs ys
  | _, _ => veq0 a b
  end.

(* Anything may be compared with nil, other values with those of their kind; errors,
   slices, maps and functions with nothing else. *)
Definition comparable0 (a b : val) : bool :=
  match b with
  | VNil => true
  | VInt _ => match a with VInt _ | VNil => true | _ => false end
  | VBool _ => match a with VBool _ | VNil => true | _ => false end
  | VStr _ => match a with VStr _ | VNil => true | _ => false end
  | VPtr _ => match a with VPtr _ | VNil => true | _ => false end
  | _ => match a with VNil => true | _ => false end
  end.
Fixpoint comparable_all (xs ys : list (string * val)) : bool :=
  match xs, ys with
  | [], [] => true
  | x :: xs', y :: ys' => comparable0 (snd x) (snd y) && comparable_all xs' ys'
  | _, _ => false
  end.
Definition comparable (a b : val) : bool :=
  match b with
  | VStc _ ys => match a with VStc _ xs => comparable_all xs ys | _ => comparable0 a b end
  | _ => comparable0 a b
  end.

(* Names in programs are compared with a copy of String.eqb, so that the proofs
   can evaluate it where it is applied to names and leave String.eqb alone. *)
Definition name_eqb : string -> string -> bool := Eval cbv in String.eqb.
(* The name of a method. *)
Definition dot (t m : string) : string := (t ++ "." ++ m)%string.

(* ---- syntax ---- *)

Inductive binop :=
  OOr | OAnd | OEq | ONe | OLt | OLe | OGt | OGe | OAdd | OSub | OMul.

Inductive expr :=
| XInt (z : Z) | XBool (b : bool) | XStr (s : string) | XNil
| XVar (x : string)
| XGlob (x : string)                              (* package-level variable *)
| XSel (e : expr) (f : string)                    (* e.f *)
| XIdx (e i : expr)                               (* e[i] *)
| XIdxZ (e i zero : expr)                         (* e[i] of a map *)
| XIdx2 (e i : expr)                              (* v, ok := e[i] *)
| XSlc (e : expr) (lo hi : option expr)           (* e[lo:hi] *)
| XNeg (e : expr) | XNot (e : expr)
| XDeref (e : expr)                               (* *e *)
| XNew (e : expr)                                 (* a new cell holding e *)
| XBin (o : binop) (a b : expr)
| XLst (l : list expr)                            (* []T{..} *)
| XStc (t : string) (fs : list (string * expr))   (* T{..} *)
| XMap                                            (* make(map[K]V) *)
| XMake (zero n : expr)                           (* make([]T, n) *)
| XLen (e : expr)
| XApp (e : expr) (l : list expr)                 (* append(e, a, b) *)
| XAppS (e l : expr)                              (* append(e, l...) *)
| XCall (f : string) (args : list expr)
| XPrim (f : string) (args : list expr)           (* standard library *)
| XSys (f : string) (args : list expr)            (* the same, with effects *)
| XIs (e : expr) (t : string)                     (* v, ok := e.(T) *)
| XGen (ps : list string) (e : expr)              (* func(ps) { return e }, of variables *)
| XFun (ps : list (string * bool)) (e : expr)     (* the same; of variables and constants *)
| XDyn (f : expr) (args : list expr)              (* call of a function value *)
| XMeth (r : expr) (m : string) (args : list expr).

Inductive lhs :=
| LBlank | LNew (x : string) | LVar (x : string)
| LSel (l : lhs) (f : string) | LIdx (l : lhs) (i : expr) | LDeref (e : expr).

Inductive stmt :=
| SAssign (l : list lhs) (r : list expr)
| SExpr (e : expr)
| SIf (init : list stmt) (c : expr) (t e : list stmt)
| SFor (init : list stmt) (c : expr) (post body : list stmt)
| SRange (k v : string) (e : expr) (body : list stmt)
| SReturn (es : list expr)
| SBreak | SContinue
| SGoto (l : string) | SLabel (l : string)
| SBlock (b : list stmt)
| SDefer (b : list stmt)
| SDelete (m : lhs) (k : expr)
| SCopy (d : lhs) (e : expr).

Record func := mkFunc
  { fparams : list string;                  (* the receiver first *)
    fresults : list (string * expr);        (* named results and zero values *)
    fptr : bool;                            (* pointer receiver *)
    fbody : list stmt }.

(* ---- states ---- *)

Definition frame := list (string * val).
Definition heap := list val.
Definition heap_get (h : heap) (l : nat) : option val := nth_error h l.
Definition heap_set (h : heap) (l : nat) (v : val) : heap := list_set h l v.

Record ms := mkMs { mEnv : list frame; mDefers : list (list stmt); mHeap : heap }.

Definition X (A : Type) : Type := ms -> res A * ms.

Definition xret {A} (a : A) : X A := fun s => (Ok a, s).
Definition xlift {A} (r : res A) : X A := fun s => (r, s).
Definition xbind {A B} (m : X A) (k : A -> X B) : X B :=
  fun s => match m s with
           | (Ok a, s') => k a s'
           | (Err e, s') => (Err e, s')
           | (Panic, s') => (Panic, s')
           | (Hang, s') => (Hang, s')
           end.
Notation "'xdo' x <- m ;; k" := (xbind m (fun x => k))
  (at level 200, x pattern, m at level 100, k at level 200).

(* The interpreter does not know what to do: an ill-typed program. *)
Definition stuck {A} : res A := Err "stuck".

Fixpoint flookup {A} (x : string) (f : list (string * A)) : option A :=
  match f with
  | [] => None
  | (k, v) :: r => if name_eqb k x then Some v else flookup x r
  end.

Fixpoint fupdate {A} (x : string) (v : A) (f : list (string * A))
  : option (list (string * A)) :=
  match f with
  | [] => None
  | (k, w) :: r =>
      if name_eqb k x then Some ((k, v) :: r)
      else option_map (cons (k, w)) (fupdate x v r)
  end.

Fixpoint elookup (x : string) (e : list frame) : option val :=
  match e with
  | [] => None
  | f :: r => match flookup x f with Some v => Some v | None => elookup x r end
  end.

Fixpoint eupdate (x : string) (v : val) (e : list frame) : option (list frame) :=
  match e with
  | [] => None
  | f :: r => match fupdate x v f with
              | Some f' => Some (f' :: r)
              | None => option_map (cons f) (eupdate x v r)
              end
  end.

Definition x_get (x : string) : X val :=
  fun s => (match elookup x (mEnv s) with Some v => Ok v | None => stuck end, s).
Definition x_set (x : string) (v : val) : X unit :=
  fun s => match eupdate x v (mEnv s) with
           | Some e => (Ok tt, mkMs e (mDefers s) (mHeap s))
           | None => (stuck, s)
           end.
Definition x_new (x : string) (v : val) : X unit :=
  fun s => match mEnv s with
           | f :: r => (Ok tt, mkMs (((x, v) :: f) :: r) (mDefers s) (mHeap s))
           | [] => (stuck, s)
           end.
Definition x_load (l : nat) : X val :=
  fun s => (match heap_get (mHeap s) l with Some v => Ok v | None => stuck end, s).
Definition x_store (l : nat) (v : val) : X unit :=
  fun s => (Ok tt, mkMs (mEnv s) (mDefers s) (heap_set (mHeap s) l v)).
Definition x_alloc (v : val) : X val :=
  fun s => (Ok (VPtr (length (mHeap s))),
            mkMs (mEnv s) (mDefers s) (mHeap s ++ [v])).

(* A block: a new frame, dropped at the end. *)
Definition x_scope {A} (f : frame) (m : X A) : X A :=
  fun s => let (r, s') := m (mkMs (f :: mEnv s) (mDefers s) (mHeap s)) in
           (r, mkMs (tl (mEnv s')) (mDefers s') (mHeap s')).

(* ---- operations on values ---- *)

Definition v_is (v : val) (t : string) : val :=
  match v with
  | VStc t' _ => if name_eqb t' t then VTup [v; VBool true] else VTup [VNil; VBool false]
  | _ => VTup [VNil; VBool false]
  end.

Definition v_elems (v : val) : res (list val) :=
  match v with VLst l => Ok l | _ => stuck end.

Fixpoint map_get (k : val) (m : list (val * val)) : option val :=
  match m with
  | [] => None
  | (k', v) :: r => if veq k' k then Some v else map_get k r
  end.
Fixpoint map_upd (k v : val) (m : list (val * val)) : option (list (val * val)) :=
  match m with
  | [] => None
  | (k', w) :: r => if veq k' k then Some ((k', v) :: r)
                    else option_map (cons (k', w)) (map_upd k v r)
  end.
Definition map_set (k v : val) (m : list (val * val)) : list (val * val) :=
  match map_upd k v m with Some m' => m' | None => (k, v) :: m end.

(* The zero value read from a map without the key: that of numbers; XIdxZ is for
   other maps. *)
Definition map_zero (m : list (val * val)) : val := VInt 0.

Definition v_index (a i : val) : res val :=
  match a, i with
  | VLst l, VInt z => sget l z
  | VStr s, VInt z =>
      if z <? 0 then Panic
      else match String.get (Z.to_nat z) s with
           | Some c => Ok (VInt (Z.of_nat (nat_of_ascii c)))
           | None => Panic
           end
  | VMap m, k => Ok (match map_get k m with Some v => v | None => map_zero m end)
  | _, _ => stuck
  end.

Definition v_index_zero (a i zero : val) : res val :=
  match a with
  | VMap m => Ok (match map_get i m with Some v => v | None => zero end)
  | _ => stuck
  end.

Definition v_set_index (a i v : val) : res val :=
  match a, i with
  | VLst l, VInt z => rdo l' <- sset l z v ;; Ok (VLst l')
  | VMap m, k => Ok (VMap (map_set k v m))
  | _, _ => stuck
  end.

Definition v_index2 (a i : val) : res val :=
  match a with
  | VMap m => Ok (match map_get i m with
                  | Some v => VTup [v; VBool true]
                  | None => VTup [map_zero m; VBool false]
                  end)
  | _ => stuck
  end.

Definition v_len (v : val) : res val :=
  match v with
  | VLst l => Ok (VInt (Z.of_nat (length l)))
  | VStr s => Ok (VInt (Z.of_nat (String.length s)))
  | VMap m => Ok (VInt (Z.of_nat (length m)))
  | _ => stuck
  end.

Definition v_slice (v : val) (lo hi : option val) : res val :=
  rdo n <- v_len v ;;
  match match lo with None => VInt 0 | Some x => x end,
        match hi with None => n | Some x => x end, n with
  | VInt a, VInt b, VInt n =>
      if (0 <=? a) && (a <=? b) && (b <=? n) then
        match v with
        | VLst l => Ok (VLst (firstn (Z.to_nat (b - a)) (skipn (Z.to_nat a) l)))
        | VStr s => Ok (VStr (substring (Z.to_nat a) (Z.to_nat (b - a)) s))
        | _ => stuck
        end
      else Panic
  | _, _, _ => stuck
  end.

Definition v_sel (v : val) (f : string) : res val :=
  match v with
  | VStc _ fs => match flookup f fs with Some w => Ok w | None => stuck end
  | _ => stuck
  end.

Definition v_set_sel (v : val) (f : string) (w : val) : res val :=
  match v with
  | VStc t fs => match fupdate f w fs with
                 | Some fs' => Ok (VStc t fs')
                 | None => stuck
                 end
  | _ => stuck
  end.

Definition v_bin (o : binop) (a b : val) : res val :=
  match o, a, b with
  | OEq, _, _ => if comparable a b then Ok (VBool (veq a b)) else stuck
  | ONe, _, _ => if comparable a b then Ok (VBool (negb (veq a b))) else stuck
  | OLt, VInt x, VInt y => Ok (VBool (x <? y))
  | OLe, VInt x, VInt y => Ok (VBool (x <=? y))
  | OGt, VInt x, VInt y => Ok (VBool (y <? x))
  | OGe, VInt x, VInt y => Ok (VBool (y <=? x))
  | OAdd, VInt x, VInt y => Ok (VInt (x + y))
  | OAdd, VStr x, VStr y => Ok (VStr (x ++ y)%string)
  | OSub, VInt x, VInt y => Ok (VInt (x - y))
  | OMul, VInt x, VInt y => Ok (VInt (x * y))
  | _, _, _ => stuck
  end.

Definition v_bool (v : val) : res bool :=
  match v with VBool b => Ok b | _ => stuck end.

(* %s of a slice of strings, without the brackets *)
Fixpoint show_list (l : list val) : option string :=
  match l with
  | [] => Some EmptyString
  | [VStr s] => Some s
  | VStr s :: r => option_map (fun t => (s ++ " " ++ t)%string) (show_list r)
  | _ => None
  end.
(* fmt.Sprintf, fmt.Errorf and fmt.Printf with %d, %s and %w: the text and the errors
   wrapped. *)
Fixpoint format (f : string) (args : list val) : option (string * list string) :=
  match f with
  | EmptyString => match args with [] => Some (EmptyString, []) | _ => None end
  | String "%" (String "d" r) =>
      match args with
      | VInt z :: args' =>
          option_map (fun p => (itoa z ++ fst p, snd p)%string) (format r args')
      | _ => None
      end
  | String "%" (String "s" r) =>
      match args with
      | VStr s :: args' =>
          option_map (fun p => (s ++ fst p, snd p)%string) (format r args')
      | VLst l :: args' =>
          match show_list l with
          | Some s => option_map (fun p => ("[" ++ s ++ "]" ++ fst p, snd p)%string) (format r args')
          | None => None
          end
      | _ => None
      end
  | String "%" (String "w" r) =>
      match args with
      | VErr e is :: args' =>
          option_map (fun p => ((e ++ fst p)%string, (is ++ snd p)%list))
            (format r args')
      | _ => None
      end
  | String c r => option_map (fun p => (String c (fst p), snd p)) (format r args)
  end.

(* strings.Split(s, "") of a text in ASCII *)
Fixpoint letters (s : string) : list string :=
  match s with
  | EmptyString => []
  | String c r => String c EmptyString :: letters r
  end.
(* Functions of the standard library without effects, and panic. *)
Definition prim (f : string) (args : list val) : res val :=
  if name_eqb f "errors.New" then
    match args with [VStr s] => Ok (VErr s []) | _ => stuck end
  else if name_eqb f "fmt.Errorf" then
    match args with
    | VStr s :: r => match format s r with
                     | Some (e, is) => Ok (VErr e is)
                     | None => stuck
                     end
    | _ => stuck
    end
  else if name_eqb f "fmt.Sprintf" then
    match args with
    | VStr s :: r => match format s r with
                     | Some (e, _) => Ok (VStr e)
                     | None => stuck
                     end
    | _ => stuck
    end
  else if name_eqb f "strconv.Itoa" then
    match args with [VInt z] => Ok (VStr (itoa z)) | _ => stuck end
  else if name_eqb f "strconv.Atoi" then
    match args with
    | [VStr s] => match atoi s with
                  | Ok z => Ok (VTup [VInt z; VNil])
                  | Err e => Ok (VTup [VInt 0; VErr e []])
                  | _ => stuck
                  end
    | _ => stuck
    end
  else if name_eqb f "bytes.Split" then
    match args with
    | [VStr s; VStr (String c EmptyString)] => Ok (VLst (map VStr (split_on c s)))
    | _ => stuck
    end
  else if name_eqb f "strings.Split" then
    match args with
    | [VStr s; VStr EmptyString] => Ok (VLst (map VStr (letters s)))
    | _ => stuck
    end
  else if name_eqb f "panic" then Panic
  else if name_eqb f "errors.Is" then
    match args with
    | [VErr _ is; VErr _ [i]] => Ok (VBool (existsb (String.eqb i) is))
    | _ => stuck
    end
  else if name_eqb f "errors.Join" then
    match args with
    | [VErr a i; VErr b j] =>
        Ok (VErr (a ++ newline ++ b)%string (i ++ j))
    | [VNil; VErr b j] => Ok (VErr b j)
    | [VErr a i; VNil] => Ok (VErr a i)
    | [VNil; VNil] => Ok VNil
    | _ => stuck
    end
  else stuck.

(* Methods of types from outside the repository: strings.Builder, bytes.Buffer,
   os.File, exec.ExitError, and a Model, of which only Dim and Nodes can be seen.
   The results and, for a pointer receiver, the receiver afterwards. *)
Definition prim_meth (t m : string) (fs : list (string * val)) (args : list val)
  : option (res (list val * option val)) :=
  if name_eqb t "strings.Builder" then
    match fs with
    | [(_, VStr b)] =>
        let out s := Some (VStc t [("buf", VStr s)]) in
        if name_eqb m "WriteString" then
          match args with
          | [VStr s] => Some (Ok ([], out (b ++ s)%string))
          | _ => Some stuck
          end
        else if name_eqb m "WriteRune" then
          match args with
          | [VInt z] =>
              if (0 <=? z) && (z <? 128) then
                Some (Ok ([], out (b ++ String (ascii_of_nat (Z.to_nat z)) EmptyString)%string))
              else Some stuck
          | _ => Some stuck
          end
        else if name_eqb m "String" then Some (Ok ([VStr b], None))
        else if name_eqb m "Reset" then Some (Ok ([], out EmptyString))
        else None
    | _ => Some stuck
    end
  else if name_eqb t "Model" then
    if name_eqb m "Dim" then
      Some (rdo d <- v_sel (VStc t fs) "dim" ;; Ok ([d], None))
    else if name_eqb m "Nodes" then
      Some (rdo d <- v_sel (VStc t fs) "nodes" ;; Ok ([d], None))
    else None
  else if name_eqb t "bytes.Buffer" then
    match fs with
    | [(_, VStr b)] =>
        if name_eqb m "String" then Some (Ok ([VStr b], None))
        else if name_eqb m "Bytes" then Some (Ok ([VStr b], None))
        else None
    | _ => Some stuck
    end
  else if name_eqb t "os.File" then
    if name_eqb m "Name" then
      Some (rdo d <- v_sel (VStc t fs) "name" ;; Ok ([d], None))
    else if name_eqb m "Close" then Some (Ok ([VNil], None))
    else None
  else if name_eqb t "exec.ExitError" then
    if name_eqb m "ExitCode" then
      Some (rdo d <- v_sel (VStc t fs) "code" ;; Ok ([d], None))
    else None
  else None.

(* Functions with effects: the operating system is the first cell of the heap that
   holds one. *)
Definition v_file (p : string) : val := VStc "os.File" [("name", VStr p)].
Definition sys_error (e : string) : val := VErr e [].

Definition sys (f : string) (args : list val) (o : os) : res val * os :=
  if name_eqb f "os.CreateTemp" then
    match args with
    | [VStr _; VStr _] =>
        match o_tmp o (o_time o) with
        | Some p => (Ok (VTup [v_file p; VNil]),
                     os_tick (os_files o (file_set p EmptyString (o_files o))))
        | None => (Ok (VTup [VNil; sys_error "cannot create temporary file"]), os_tick o)
        end
    | _ => (stuck, o)
    end
  else if name_eqb f "os.Create" then
    match args with
    | [VStr p] =>
        if o_create o (o_time o) then
          (Ok (VTup [v_file p; VNil]),
           os_writes (os_files o (file_set p EmptyString (o_files o))) 0)
        else (Ok (VTup [VNil; sys_error "i/o error"]), o)
    | _ => (stuck, o)
    end
  else if name_eqb f "os.Remove" then
    match args with
    | [VStr p] => (Ok VNil, os_files o (file_remove p (o_files o)))
    | _ => (stuck, o)
    end
  else if name_eqb f "os.Stat" then
    match args with
    | [VStr p] => (Ok (VTup [VNil; match o_stat o p with
                                   | Some e => sys_error e
                                   | None => VNil
                                   end]), o)
    | _ => (stuck, o)
    end
  else if name_eqb f "exec.Command" then
    match args with
    | [VStr p; VStr a] =>
        (Ok (VStc "exec.Cmd" [("Path", VStr p); ("Arg", VStr a); ("Stdout", VNil);
                              ("Stderr", VNil)]), o)
    | _ => (stuck, o)
    end
  else if name_eqb f "fmt.Println" then
    match args with
    | [VStr s] => (Ok VNil, os_print o (s ++ newline))
    | [VBool b] => (Ok VNil, os_print o ((if b then "true" else "false") ++ newline))
    | _ => (stuck, o)
    end
  else if name_eqb f "fmt.Printf" then
    match args with
    | VStr s :: r => match format s r with
                     | Some (t, _) => (Ok VNil, os_print o t)
                     | None => (stuck, o)
                     end
    | _ => (stuck, o)
    end
  else (stuck, o).

(* f.WriteString(s): a failed write leaves the file as it was. *)
Definition sys_write (p s : string) (o : os) : list val * os :=
  let o' := os_writes o (S (o_writes o)) in
  if o_write o (o_time o) (o_writes o) then
    ([VInt (Z.of_nat (String.length s)); VNil],
     os_files o' (file_set p (file_get p (o_files o) ++ s) (o_files o)))
  else ([VInt 0; sys_error "i/o error"], o').

(* cmd.Run(): what it returns and what it writes to Stdout and Stderr. *)
Definition sys_run (prog arg : string) (o : os) : val * string * string :=
  match o_exec o (o_time o) prog (file_get arg (o_files o)) with
  | PExit code out errout =>
      (if code =? 0 then VNil else VStc "exec.ExitError" [("code", VInt code)], out, errout)
  | PFail e => (VErr e [], EmptyString, EmptyString)
  end.

Fixpoint find_sys (i : nat) (h : heap) : option (nat * os) :=
  match h with
  | [] => None
  | VSys o :: _ => Some (i, o)
  | _ :: r => find_sys (S i) r
  end.

Definition with_sys {A} (k : os -> res A * os) : X A :=
  fun s => match find_sys 0 (mHeap s) with
           | Some (l, o) =>
               let (r, o') := k o in
               (r, mkMs (mEnv s) (mDefers s) (heap_set (mHeap s) l (VSys o')))
           | None => (stuck, s)
           end.

(* Writing to a bytes.Buffer a command points to. *)
Definition x_output (p : val) (s : string) : X unit :=
  match p with
  | VPtr l =>
      xdo v <- x_load l ;;
      match v with
      | VStc t [(f, VStr b)] => x_store l (VStc t [(f, VStr (b ++ s)%string)])
      | _ => xlift stuck
      end
  | VNil => xret tt
  | _ => xlift stuck
  end.

(* Methods with effects. *)
Definition sys_meth (t m : string) (fs : list (string * val)) (args : list val)
  : option (X (list val * option val)) :=
  if name_eqb t "os.File" then
    if name_eqb m "WriteString" then
      match fs, args with
      | [(_, VStr p)], [VStr s] =>
          Some (xdo vs <- with_sys (fun o => let (vs, o') := sys_write p s o in (Ok vs, o')) ;;
                xret (vs, None))
      | _, _ => Some (xlift stuck)
      end
    else None
  else if name_eqb t "exec.Cmd" then
    if name_eqb m "Run" then
      match fs with
      | [(_, VStr p); (_, VStr a); (_, out); (_, errout)] =>
          Some (xdo r <- with_sys (fun o => (Ok (sys_run p a o), o)) ;;
                xdo _ <- x_output out (snd (fst r)) ;;
                xdo _ <- x_output errout (snd r) ;;
                xret ([fst (fst r)], None))
      | _ => Some (xlift stuck)
      end
    else None
  else None.

(* ---- the interpreter ---- *)

Inductive flow :=
| FNext | FBreak | FContinue | FGoto (l : string) | FRet (vs : option (list val)).

(* Writing back a receiver: a variable or a field of one. *)
Fixpoint read_back (e : expr) : X val :=
  match e with
  | XVar x => x_get x
  | XSel e f => xdo v <- read_back e ;; xlift (v_sel v f)
  | _ => xlift stuck
  end.
Fixpoint write_back (e : expr) (w : val) : X unit :=
  match e with
  | XVar x => x_set x w
  | XSel e f => xdo v <- read_back e ;; xdo v' <- xlift (v_set_sel v f w) ;;
                write_back e v'
  | _ => xlift stuck
  end.

Definition one (vs : list val) : val :=
  match vs with [v] => v | _ => VTup vs end.

Section Map.
  Variable A B : Type.
  Variable f : A -> X B.
  (* left to right *)
  Fixpoint x_map (l : list A) : X (list B) :=
    match l with
    | [] => xret []
    | a :: r => xdo b <- f a ;; xdo bs <- x_map r ;; xret (b :: bs)
    end.
End Map.
Arguments x_map {A B} f l.

Section Interp.
  (* [kind f]: is f a method with a pointer receiver, if it exists. *)
  Variable kind : string -> option bool.
  (* [embedded t]: the embedded fields of a struct type. *)
  Variable embedded : string -> list string.
  Variable globals : string -> option val.
  (* A call; for a pointer receiver the receiver comes first in the results. *)
  Variable call : string -> list val -> heap -> res (list val) * heap.
  Variable fuel : nat.

  Definition x_call (f : string) (args : list val) : X (list val) :=
    fun s => let (r, h) := call f args (mHeap s) in
             (r, mkMs (mEnv s) (mDefers s) h).

  (* A method of the type itself. *)
  Definition own_method (t m : string) (fs : list (string * val))
      (args : list val) : option (X (list val * option val)) :=
    match kind (dot t m) with
    | Some true =>
        Some (xdo r <- x_call (dot t m) (VStc t fs :: args) ;;
              match r with
              | v :: vs => xret (vs, Some v)
              | [] => xlift stuck
              end)
    | Some false =>
        Some (xdo vs <- x_call (dot t m) (VStc t fs :: args) ;;
              xret (vs, None))
    | None => match prim_meth t m fs args with
              | Some r => Some (xlift r)
              | None => sys_meth t m fs args
              end
    end.

  (* A method promoted from an embedded field. *)
  Fixpoint promoted (m : string) (v : val) (fs : list (string * val))
      (args : list val) (names : list string) : X (list val * option val) :=
    match names with
    | [] => xlift stuck
    | f :: r =>
        match flookup f fs with
        | Some (VStc t' fs') =>
            match own_method t' m fs' args with
            | Some x =>
                xdo p <- x ;;
                match snd p with
                | None => xret (fst p, None)
                | Some w => xdo v' <- xlift (v_set_sel v f w) ;;
                            xret (fst p, Some v')
                end
            | None => promoted m v fs args r
            end
        | _ => promoted m v fs args r
        end
    end.

  (* r.m(args): results and the receiver afterwards. *)
  Definition method (r : val) (m : string) (args : list val)
    : X (list val * option val) :=
    match r with
    | VStc t fs =>
        match own_method t m fs args with
        | Some x => x
        | None => promoted m r fs args (embedded t)
        end
    | VNil => xlift Panic
    | _ => xlift stuck
    end.

  Section Assign.
    Variable ev : expr -> X val.
    Fixpoint x_read (l : lhs) : X val :=
      match l with
      | LVar x => x_get x
      | LSel l f => xdo v <- x_read l ;; xlift (v_sel v f)
      | LIdx l i => xdo v <- x_read l ;; xdo j <- ev i ;; xlift (v_index v j)
      | LDeref e => xdo p <- ev e ;;
                    match p with
                    | VPtr n => x_load n
                    | VNil => xlift Panic
                    | _ => xlift stuck
                    end
      | _ => xlift stuck
      end.
    Fixpoint x_assign (l : lhs) (w : val) : X unit :=
      match l with
      | LBlank => xret tt
      | LNew x => x_new x w
      | LVar x => x_set x w
      | LSel l f => xdo v <- x_read l ;; xdo v' <- xlift (v_set_sel v f w) ;;
                    x_assign l v'
      | LIdx l i => xdo j <- ev i ;; xdo v <- x_read l ;;
                    xdo v' <- xlift (v_set_index v j w) ;; x_assign l v'
      | LDeref e => xdo p <- ev e ;;
                    match p with
                    | VPtr n => x_store n w
                    | VNil => xlift Panic
                    | _ => xlift stuck
                    end
      end.
  End Assign.

  (* Method calls, pointers being followed and receivers written back. *)
  Definition x_method (r : expr) (m : string) (rv : val) (args : list val)
    : X val :=
    match rv with
    | VPtr n =>
        xdo v <- x_load n ;;
        xdo p <- method v m args ;;
        xdo _ <- match snd p with Some w => x_store n w | None => xret tt end ;;
        xret (one (fst p))
    | _ =>
        xdo p <- method rv m args ;;
        xdo _ <- match snd p with
                 | Some w => write_back r w
                 | None => xret tt
                 end ;;
        xret (one (fst p))
    end.

  Definition v_str (v : val) : res string :=
    match v with VStr s => Ok s | _ => stuck end.

  Fixpoint strings (l : list val) : res (list string) :=
    match l with
    | [] => Ok []
    | v :: r => rdo s <- v_str v ;; rdo t <- strings r ;; Ok (s :: t)
    end.

  Definition v_farg (v : val) : res farg :=
    match v with
    | VStr s => Ok (AVar s)
    | VStc _ [(_, VStr i); (_, VLst l)] =>
        rdo zs <- (fix ints l := match l with
                                 | [] => Ok []
                                 | VInt z :: r => rdo zs <- ints r ;; Ok (z :: zs)
                                 | _ => stuck
                                 end) l ;;
        Ok (AConst i zs)
    | _ => stuck
    end.
  Fixpoint fargs (l : list val) : res (list farg) :=
    match l with
    | [] => Ok []
    | v :: r => rdo s <- v_farg v ;; rdo t <- fargs r ;; Ok (s :: t)
    end.

  Definition v_dyn (f : val) (args : list val) : res val :=
    match f with
    | VGen g => rdo l <- strings args ;; Ok (VStr (g l))
    | VFun g => rdo l <- fargs args ;; Ok (g l)
    | VNil => Panic
    | _ => stuck
    end.

  Definition v_make (zero n : val) : res val :=
    match n with
    | VInt z => if z <? 0 then Panic else Ok (VLst (repeat zero (Z.to_nat z)))
    | _ => stuck
    end.

  (* The arguments of a function literal, as a frame. *)
  Fixpoint with_vars (ps : list string) (l : list string) (k : frame -> string) : string :=
    match ps with
    | [] => match l with [] => k [] | _ => EmptyString end
    | x :: ps' => match l with
                  | v :: l' => with_vars ps' l' (fun f => k ((x, VStr v) :: f))
                  | [] => EmptyString
                  end
    end.
  Fixpoint with_fargs (ps : list (string * bool)) (l : list farg) (k : frame -> val) : val :=
    match ps with
    | [] => match l with [] => k [] | _ => VNil end
    | (x, false) :: ps' =>
        match l with
        | AVar v :: l' => with_fargs ps' l' (fun f => k ((x, VStr v) :: f))
        | _ => VNil
        end
    | (x, true) :: ps' =>
        match l with
        | AConst i zs :: l' =>
            with_fargs ps' l'
              (fun f => k ((x, VStc "query.QConst" [("ID", VStr i); ("Val", VLst (map VInt zs))]) :: f))
        | _ => VNil
        end
    end.

  Fixpoint eval (e : expr) : X val :=
    match e with
    | XInt z => xret (VInt z)
    | XBool b => xret (VBool b)
    | XStr s => xret (VStr s)
    | XNil => xret VNil
    | XVar x => x_get x
    | XGlob x => xlift (match globals x with Some v => Ok v | None => stuck end)
    | XSel e f => xdo v <- eval e ;; xlift (v_sel v f)
    | XIdx e i => xdo v <- eval e ;; xdo j <- eval i ;; xlift (v_index v j)
    | XIdxZ e i z => xdo v <- eval e ;; xdo j <- eval i ;; xdo w <- eval z ;;
                     xlift (v_index_zero v j w)
    | XIdx2 e i => xdo v <- eval e ;; xdo j <- eval i ;; xlift (v_index2 v j)
    | XSlc e lo hi =>
        xdo v <- eval e ;;
        xdo a <- match lo with None => xret None
                 | Some x => xdo w <- eval x ;; xret (Some w) end ;;
        xdo b <- match hi with None => xret None
                 | Some x => xdo w <- eval x ;; xret (Some w) end ;;
        xlift (v_slice v a b)
    | XNeg e => xdo v <- eval e ;;
                xlift (match v with VInt z => Ok (VInt (- z)) | _ => stuck end)
    | XNot e => xdo v <- eval e ;;
                xlift (match v with VBool b => Ok (VBool (negb b)) | _ => stuck end)
    | XDeref e => xdo p <- eval e ;;
                  match p with
                  | VPtr n => x_load n
                  | VNil => xlift Panic
                  | _ => xlift stuck
                  end
    | XNew e => xdo v <- eval e ;; x_alloc v
    | XBin OAnd a b =>
        xdo v <- eval a ;; xdo c <- xlift (v_bool v) ;;
        if c then eval b else xret (VBool false)
    | XBin OOr a b =>
        xdo v <- eval a ;; xdo c <- xlift (v_bool v) ;;
        if c then xret (VBool true) else eval b
    | XBin o a b => xdo v <- eval a ;; xdo w <- eval b ;; xlift (v_bin o v w)
    | XLst l => xdo vs <- x_map eval l ;; xret (VLst vs)
    | XStc t fs =>
        xdo vs <- x_map (fun p => xdo v <- eval (snd p) ;; xret (fst p, v)) fs ;;
        xret (VStc t vs)
    | XMap => xret (VMap [])
    | XMake z n => xdo v <- eval z ;; xdo w <- eval n ;; xlift (v_make v w)
    | XLen e => xdo v <- eval e ;; xlift (v_len v)
    | XApp e l =>
        xdo v <- eval e ;; xdo vs <- x_map eval l ;;
        xdo es <- xlift (v_elems v) ;; xret (VLst (es ++ vs))
    | XAppS e l =>
        xdo v <- eval e ;; xdo w <- eval l ;;
        xdo es <- xlift (v_elems v) ;; xdo fs <- xlift (v_elems w) ;;
        xret (VLst (es ++ fs))
    | XCall f args =>
        xdo vs <- x_map eval args ;; xdo r <- x_call f vs ;; xret (one r)
    | XPrim f args => xdo vs <- x_map eval args ;; xlift (prim f vs)
    | XSys f args => xdo vs <- x_map eval args ;; with_sys (sys f vs)
    | XIs e t => xdo v <- eval e ;; xret (v_is v t)
    | XGen ps e =>
        fun s => (Ok (VGen (fun l => with_vars ps l (fun f =>
                    match fst (eval e (mkMs (f :: mEnv s) [] (mHeap s))) with
                    | Ok (VStr v) => v
                    | _ => EmptyString
                    end))), s)
    | XFun ps e =>
        fun s => (Ok (VFun (fun l => with_fargs ps l (fun f =>
                    match fst (eval e (mkMs (f :: mEnv s) [] (mHeap s))) with
                    | Ok v => v
                    | _ => VNil
                    end))), s)
    | XDyn f args =>
        xdo g <- eval f ;; xdo vs <- x_map eval args ;; xlift (v_dyn g vs)
    | XMeth r m args =>
        xdo rv <- eval r ;; xdo vs <- x_map eval args ;;
        x_method r m rv vs
    end.

  Fixpoint assign_all (ls : list lhs) (vs : list val) : X unit :=
    match ls, vs with
    | [], [] => xret tt
    | l :: ls', v :: vs' => xdo _ <- x_assign eval l v ;; assign_all ls' vs'
    | _, _ => xlift stuck
    end.

  (* A single expression with several values, or one value each. *)
  Definition spread (vs : list val) : list val :=
    match vs with [VTup l] => l | _ => vs end.

  Section Block.
    Variable ex : stmt -> X flow.
    (* [skip]: the label a goto is looking for. *)
    Fixpoint run_block (skip : option string) (ss : list stmt) : X flow :=
      match ss with
      | [] => xret (match skip with None => FNext | Some l => FGoto l end)
      | s :: r =>
          match skip with
          | None =>
              xdo fl <- ex s ;;
              match fl with
              | FNext => run_block None r
              | FGoto l => run_block (Some l) r
              | _ => xret fl
              end
          | Some l =>
              match s with
              | SLabel l' =>
                  if name_eqb l l' then run_block None r
                  else run_block skip r
              | _ => run_block skip r
              end
          end
      end.
  End Block.

  Fixpoint loop (cond : X bool) (body post : X flow) (n : nat) : X flow :=
    match n with
    | O => xlift Hang
    | S n' =>
        xdo b <- cond ;;
        if b then
          xdo fl <- body ;;
          match fl with
          | FNext | FContinue => xdo _ <- post ;; loop cond body post n'
          | FBreak => xret FNext
          | _ => xret fl
          end
        else xret FNext
    end.

  Fixpoint range_loop (body : val * val -> X flow) (l : list (val * val)) : X flow :=
    match l with
    | [] => xret FNext
    | p :: r =>
        xdo fl <- body p ;;
        match fl with
        | FNext | FContinue => range_loop body r
        | FBreak => xret FNext
        | _ => xret fl
        end
    end.

  Fixpoint indexed (i : Z) (l : list val) : list (val * val) :=
    match l with [] => [] | v :: r => (VInt i, v) :: indexed (i + 1) r end.

  Definition v_range (v : val) : res (list (val * val)) :=
    match v with
    | VLst l => Ok (indexed 0 l)
    | VMap m => Ok m
    | VStc _ [(f, VLst l)] => if name_eqb f "[]" then Ok (indexed 0 l) else stuck
    | _ => stuck
    end.

  Definition bind_name (x : string) (v : val) (f : frame) : frame :=
    if name_eqb x "_" then f else (x, v) :: f.

  Fixpoint exec (s : stmt) : X flow :=
    match s with
    | SAssign ls rs =>
        xdo vs <- x_map eval rs ;;
        xdo _ <- assign_all ls (match ls with [_] => vs | _ => spread vs end) ;;
        xret FNext
    | SExpr e => xdo _ <- eval e ;; xret FNext
    | SIf init c t e =>
        x_scope []
          (xdo _ <- run_block exec None init ;;
           xdo v <- eval c ;; xdo b <- xlift (v_bool v) ;;
           x_scope [] (run_block exec None (if b then t else e)))
    | SFor init c post body =>
        x_scope []
          (xdo _ <- run_block exec None init ;;
           loop (xdo v <- eval c ;; xlift (v_bool v))
             (x_scope [] (run_block exec None body))
             (run_block exec None post) fuel)
    | SRange k v e body =>
        xdo w <- eval e ;; xdo l <- xlift (v_range w) ;;
        range_loop
          (fun p => x_scope (bind_name k (fst p) (bind_name v (snd p) []))
                      (x_scope [] (run_block exec None body))) l
    | SReturn [] => xret (FRet None)
    | SReturn es => xdo vs <- x_map eval es ;; xret (FRet (Some (spread vs)))
    | SBreak => xret FBreak
    | SContinue => xret FContinue
    | SGoto l => xret (FGoto l)
    | SLabel _ => xret FNext
    | SBlock b => x_scope [] (run_block exec None b)
    | SDefer b => fun s => (Ok FNext, mkMs (mEnv s) (b :: mDefers s) (mHeap s))
    | SDelete l e =>
        xdo k <- eval e ;; xdo v <- x_read eval l ;;
        match v with
        | VMap m =>
            xdo _ <- x_assign eval l
                       (VMap (filter (fun p => negb (veq (fst p) k)) m)) ;;
            xret FNext
        | _ => xlift stuck
        end
    | SCopy l e =>
        xdo src <- eval e ;; xdo s <- xlift (v_elems src) ;;
        xdo dst <- x_read eval l ;; xdo d <- xlift (v_elems dst) ;;
        xdo _ <- x_assign eval l
                   (VLst (firstn (length d) s ++ skipn (length s) d)) ;;
        xret FNext
    end.

  (* Deferred calls, the last one first. *)
  Fixpoint run_defers (l : list (list stmt)) : X unit :=
    match l with
    | [] => xret tt
    | b :: r => xdo _ <- x_scope [] (run_block exec None b) ;; run_defers r
    end.

  Definition get_all (ns : list (string * expr)) : X (list val) :=
    x_map (fun p => x_get (fst p)) ns.

  Fixpoint set_all (ns : list (string * expr)) (vs : list val) : X unit :=
    match ns, vs with
    | [], [] => xret tt
    | p :: ns', v :: vs' => xdo _ <- x_set (fst p) v ;; set_all ns' vs'
    | _, _ => xlift stuck
    end.

  (* The results of a function whose body ended with [fl]. *)
  Definition finish (f : func) (fl : flow) : X (list val) :=
    xdo vs <- match fl, fresults f with
              | FRet (Some vs), [] => xret vs
              | FRet (Some vs), ns => xdo _ <- set_all ns vs ;; xret []
              | FRet None, _ | FNext, _ => xret []
              | _, _ => xlift stuck
              end ;;
    xdo _ <- (fun s => run_defers (mDefers s) s) ;;
    xdo rs <- match fresults f with
              | [] => xret vs
              | ns => get_all ns
              end ;;
    if fptr f then
      xdo r <- match fparams f with x :: _ => x_get x | [] => xlift stuck end ;;
      xret (r :: rs)
    else xret rs.

  Fixpoint params (xs : list string) (vs : list val) (f : frame) : frame :=
    match xs, vs with
    | x :: xs', v :: vs' => (x, v) :: params xs' vs' f
    | _, _ => f
    end.

  Definition run (f : func) (args : list val) : X (list val) :=
    fun s =>
      match x_map (fun p => xdo v <- eval (snd p) ;; xret (fst p, v)) (fresults f) s with
      | (Ok rs, s) =>
          let s := mkMs [params (fparams f) args rs] [] (mHeap s) in
          match run_block exec None (fbody f) s with
          | (Ok fl, s') => finish f fl s'
          | (Panic, s') =>
              (* deferred calls run, and the panic goes on *)
              let (_, s'') := run_defers (mDefers s') s' in (Panic, s'')
          | (Err e, s') => (Err e, s')
          | (Hang, s') => (Hang, s')
          end
      | (_, s) => (stuck, s)
      end.
End Interp.

(* ---- programs ---- *)

Record program := mkProgram
  { p_funcs : list (string * func);
    p_embedded : list (string * list string);
    p_globals : list (string * val) }.

Definition find_func (p : program) (f : string) : option func := flookup f (p_funcs p).
Definition kind_of (p : program) (f : string) : option bool :=
  option_map fptr (find_func p f).
Definition embedded_of (p : program) (t : string) : list string :=
  match flookup t (p_embedded p) with Some l => l | None => [] end.
Definition global_of (p : program) (x : string) : option val := flookup x (p_globals p).

(* [n] bounds the depth of calls and the turns of each loop. *)
Fixpoint call_func (p : program) (n : nat) (f : string) (args : list val) (h : heap)
  : res (list val) * heap :=
  match n with
  | O => (Hang, h)
  | S n' =>
      match find_func p f with
      | None => (stuck, h)
      | Some fn =>
          let (r, s) := run (kind_of p) (embedded_of p) (global_of p)
                          (call_func p n') n' fn args (mkMs [] [] h) in
          (r, mHeap s)
      end
  end.

(* A main function: its first [k] statements use nothing of the system; the cell of
   the operating system comes after the cells they make. *)
Definition run_main (p : program) (n : nat) (f : string) (k : nat) (o : os)
  : res unit * heap :=
  match find_func p f with
  | None => (stuck, [])
  | Some fn =>
      let block := run_block
        (exec (kind_of p) (embedded_of p) (global_of p) (call_func p n) n) None in
      match block (firstn k (fbody fn)) (mkMs [[]] [] []) with
      | (Ok FNext, s) =>
          match block (skipn k (fbody fn))
                  (mkMs (mEnv s) (mDefers s) (mHeap s ++ [VSys o])) with
          | (Ok FNext, s) => (Ok tt, mHeap s)
          | (Ok _, s) => (stuck, mHeap s)
          | (Err e, s) => (Err e, mHeap s)
          | (Panic, s) => (Panic, mHeap s)
          | (Hang, s) => (Hang, mHeap s)
          end
      | (_, s) => (stuck, mHeap s)
      end
  end.

(* Package-level variables, in order; an error value is known by its name. *)
Definition init_globals (l : list (string * expr)) : list (string * val) :=
  fold_left
    (fun g p =>
       match fst (eval (fun _ => None) (fun _ => []) (fun x => flookup x g)
                    (fun _ _ h => (stuck, h)) (snd p) (mkMs [] [] [])) with
       | Ok (VErr e _) => g ++ [(fst p, VErr e [fst p])]
       | Ok v => g ++ [(fst p, v)]
       | _ => g
       end) l [].
