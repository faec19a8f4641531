(* From syntax trees of Go (GoParse.v) to programs of GoLang.v.  Everything that
   is not covered gives None. *)
From Verif Require Import GoBase Cnf GoLang GoParse.
Local Open Scope string_scope.
Local Open Scope Z_scope.
Local Open Scope list_scope.

Notation "'odo' x <- m ;; k" := (match m with Some x => k | None => None end)
  (at level 200, x pattern, m at level 100, k at level 200).
Fixpoint omap {A B} (f : A -> option B) (l : list A) : option (list B) :=
  match l with
  | [] => Some []
  | a :: r => odo b <- f a ;; odo r' <- omap f r ;; Some (b :: r')
  end.
Definition oopt {A B} (f : A -> option B) (o : option A) : option (option B) :=
  match o with None => Some None | Some a => odo b <- f a ;; Some (Some b) end.
Definition fails {A} (o : option A) : bool := match o with None => true | Some _ => false end.

Definition qual (p n : string) : string := (p ++ "." ++ n)%string.
Definition basic (x : string) : bool := among x ["int"; "string"; "bool"; "byte"; "error"].
Definition is_nil (e : ex) : bool := match e with EId x => String.eqb x "nil" | _ => false end.

(* ---- the package-level names ---- *)

Section Names.
Variable ds : list decl.     (* of all files *)

Definition find_type (p n : string) : option ty :=
  match find (fun d => match d with DType q m _ => String.eqb q p && String.eqb m n | _ => false end) ds with
  | Some (DType _ _ t) => Some t
  | _ => None
  end.
Definition find_val (p n : string) : option vdecl :=
  match find (fun d => match d with DVal v => String.eqb (vd_pkg v) p && String.eqb (vd_name v) n | _ => false end) ds with
  | Some (DVal v) => Some v
  | _ => None
  end.
Definition find_fun (p n : string) : option fdecl :=
  match find (fun d => match d with
                       | DFunc f => String.eqb (fd_pkg f) p && String.eqb (fd_name f) n && fails (fd_recv f)
                       | _ => false end) ds with
  | Some (DFunc f) => Some f
  | _ => None
  end.
(* the method of a type, with a receiver that is not a pointer *)
Definition find_meth (p t m : string) : option fdecl :=
  match find (fun d => match d with
                       | DFunc f => String.eqb (fd_pkg f) p && String.eqb (fd_name f) m
                                    && match fd_recv f with Some (_, TyId t') => String.eqb t' t | _ => false end
                       | _ => false end) ds with
  | Some (DFunc f) => Some f
  | _ => None
  end.
(* where the variadic parameter of the functions of this name is *)
Definition variadic (n : string) : option nat :=
  fold_left (fun acc d => match d with
    | DFunc f => match String.eqb (fd_name f) n, rev (fd_ps f) with
                 | true, (_, TyDots _) :: r => Some (length r)
                 | _, _ => acc
                 end
    | _ => acc end) ds None.
(* a field of function type *)
Definition fun_field (n : string) : bool :=
  existsb (fun d => match d with
    | DType _ _ (TyStruct fs) => existsb (fun f => match f with (x, TyFunc, _) => String.eqb x n | _ => false end) fs
    | _ => false end) ds.

(* ---- types ---- *)

Definition resolve (p : string) (t : ty) : option (string * string) :=
  match t with
  | TyId x => if basic x then None else match find_type p x with Some _ => Some (p, x) | None => None end
  | TyQ q x => Some (q, x)
  | _ => None
  end.
Definition is_builder (q x : string) : bool := String.eqb q "strings" && String.eqb x "Builder".
Definition is_buffer (q x : string) : bool := String.eqb q "bytes" && String.eqb x "Buffer".
(* the underlying type and the package its names belong to *)
Fixpoint under (n : nat) (p : string) (t : ty) : option (ty * string) :=
  match n with
  | O => None
  | S n' =>
      match resolve p t with
      | None => Some (t, p)
      | Some (q, x) =>
          if is_builder q x || is_buffer q x then Some (t, p)
          else odo u <- find_type q x ;; under n' q u
      end
  end.
Fixpoint zero (n : nat) (p : string) (t : ty) : option expr :=
  match n with
  | O => None
  | S n' =>
      odo (u, q) <- under n p t ;;
      match u with
      | TyId x =>
          if among x ["int"; "byte"] then Some (XInt 0)
          else if String.eqb x "string" then Some (XStr "")
          else if String.eqb x "bool" then Some (XBool false)
          else if String.eqb x "error" then Some XNil else None
      | TySlice (TyId b) => if String.eqb b "byte" then Some (XStr "") else Some (XLst [])
      | TySlice _ => Some (XLst [])
      | TyQ _ x => Some (XStc (if String.eqb x "Builder" then "strings.Builder" else "bytes.Buffer") [("buf", XStr "")])
      | TyStruct fs =>
          odo zs <- omap (fun f => match f with (x, ft, _) => odo z <- zero n' q ft ;; Some (x, z) end) fs ;;
          Some (XStc (match resolve p t with Some (q', x) => qual q' x | None => "struct" end) zs)
      | _ => Some XNil
      end
  end.
Definition is_slice (p : string) (t : ty) : bool :=
  match under 20 p t with Some (TySlice _, _) => true | _ => false end.
(* x.f is of slice type, for every struct with a field f *)
Definition slice_field (f : string) : option bool :=
  let l := flat_map (fun d => match d with
    | DType p _ (TyStruct fs) => flat_map (fun g => match g with (x, t, _) => if String.eqb x f then [is_slice p t] else [] end) fs
    | _ => [] end) ds in
  match l with
  | [] => None
  | b :: r => if forallb (Bool.eqb b) r then Some b else None
  end.
(* a Model: the fields dim and nodes, and methods that return them *)
Definition returns_field (p t m f : string) : bool :=
  match find_meth p t m with
  | Some fd => match fd_recv fd, fd_body fd with
               | Some (Some r, _), [StReturn [ESel (EId r') f']] => String.eqb r r' && String.eqb f f'
               | _, _ => false
               end
  | None => false
  end.
Definition is_model (p t : string) : bool :=
  match find_type p t with
  | Some (TyStruct [(a, TyId i, _); (b, TySlice (TyQ q nd), _)]) =>
      String.eqb a "dim" && String.eqb i "int" && String.eqb b "nodes" && String.eqb q "query" && String.eqb nd "Node"
      && returns_field p t "Dim" "dim" && returns_field p t "Nodes" "nodes"
  | _ => false
  end.

(* ---- where we are ---- *)

Record where_ := mkWhere
  { w_pkg : string; w_imp : list (string * string);
    w_heap : list string;              (* variables whose address is taken *)
    w_bmaps : list string;             (* variables that hold maps to bool *)
    w_rs : list ty }.                  (* types of the results *)
Definition is_var (sc : list (list string)) (x : string) : bool := existsb (among x) sc.
Definition import (w : where_) (x : string) : option string :=
  match find (fun i => String.eqb (fst i) x) (w_imp w) with Some i => Some (snd i) | None => None end.
(* x is the name of a package here *)
Definition is_pkg (w : where_) (sc : list (list string)) (x : string) : bool := negb (is_var sc x) && negb (fails (import w x)).
Definition local (path : string) : bool := prefix "github.com/jtcaraball/goexpdt/" path.
Fixpoint is_type (w : where_) (sc : list (list string)) (e : ex) : option ty :=
  match e with
  | EType t => Some t
  | EParen e' => is_type w sc e'
  | EId x => if negb (is_var sc x) && (basic x || negb (fails (find_type (w_pkg w) x))) then Some (TyId x) else None
  | ESel (EId p) x => if is_pkg w sc p && negb (fails (find_type p x)) then Some (TyQ p x) else None
  | _ => None
  end.
Fixpoint unparen (e : ex) : ex := match e with EParen e' => unparen e' | _ => e end.

(* the variables of which the address is taken *)
Fixpoint addr_e (e : ex) : list string :=
  match e with
  | EInt _ | EStr _ | EId _ | EType _ => []
  | ESel e' _ | EParen e' | EAssert e' _ => addr_e e'
  | EIdx a b | EBin _ a b => addr_e a ++ addr_e b
  | ESlc a lo hi =>
      addr_e a ++ match lo with Some x => addr_e x | None => [] end ++ match hi with Some x => addr_e x | None => [] end
  | EUn o e' => match e' with EId x => if String.eqb o "&" then [x] else [] | _ => addr_e e' end
  | ECall f l _ => addr_e f ++ flat_map addr_e l
  | ELit _ l => flat_map (fun p => addr_e (snd p)) l
  | EFunc _ _ b => flat_map addr_s b
  end
with addr_s (s : st) : list string :=
  match s with
  | StVar _ _ (Some es) => flat_map addr_e es
  | StVar _ _ None => []
  | StDefine l r | StAssign l r => flat_map addr_e l ++ flat_map addr_e r
  | StExpr e | StDefer e => addr_e e
  | StIf i c t e => match i with Some s' => addr_s s' | None => [] end ++ addr_e c ++ flat_map addr_s t ++ flat_map addr_s e
  | StFor i c p b =>
      match i with Some s' => addr_s s' | None => [] end ++ match c with Some x => addr_e x | None => [] end
      ++ match p with Some s' => addr_s s' | None => [] end ++ flat_map addr_s b
  | StRange l e _ b => flat_map addr_e l ++ addr_e e ++ flat_map addr_s b
  | StSwitch t cs =>
      match t with Some x => addr_e x | None => [] end
      ++ flat_map (fun c => match fst c with Some l => flat_map addr_e l | None => [] end ++ flat_map addr_s (snd c)) cs
  | StReturn es => flat_map addr_e es
  | StBreak | StContinue | StGoto _ | StLabel _ => []
  | StBlock b => flat_map addr_s b
  end.
(* the variables that are defined as maps to bool *)
Definition bool_map (p : string) (l r : list ex) : list string :=
  match l, r with
  | [EId x], [ECall (EId f) args _] =>
      let t := if String.eqb f "make" then match args with EType t :: _ => Some t | _ => None end
               else match find_fun p f with
                    | Some fd => match fd_rs fd with [(_, t)] => Some t | _ => None end
                    | None => None
                    end in
      match t with
      | Some (TyMap _ (TyId b)) => if String.eqb b "bool" then [x] else []
      | _ => []
      end
  | _, _ => []
  end.
Fixpoint maps_s (p : string) (s : st) : list string :=
  match s with
  | StDefine l r => bool_map p l r
  | StIf i _ t e => match i with Some s' => maps_s p s' | None => [] end ++ flat_map (maps_s p) t ++ flat_map (maps_s p) e
  | StFor i _ _ b => match i with Some s' => maps_s p s' | None => [] end ++ flat_map (maps_s p) b
  | StRange _ _ _ b | StBlock b => flat_map (maps_s p) b
  | StSwitch _ cs => flat_map (fun c => flat_map (maps_s p) (snd c)) cs
  | _ => []
  end.

(* ---- expressions ---- *)

Definition binop_of (o : string) : option binop :=
  option_map snd (find (fun p => String.eqb (fst p) o)
    [("||", OOr); ("&&", OAnd); ("==", OEq); ("!=", ONe); ("<", OLt); ("<=", OLe); (">", OGt); (">=", OGe);
     ("+", OAdd); ("-", OSub); ("*", OMul)]).
(* parameters of a function value: true for constants *)
Definition fun_param (p : string) (q : option string * ty) : option (string * bool) :=
  match q, resolve p (snd q) with
  | (Some x, _), Some (q', k) =>
      if negb (String.eqb q' "query") then None
      else if String.eqb k "QVar" then Some (x, false) else if String.eqb k "QConst" then Some (x, true) else None
  | _, _ => None
  end.
Definition with_effects (p f : string) : bool :=
  among p ["os"; "exec"] || (String.eqb p "fmt" && among f ["Printf"; "Println"]).
Definition pack (n : string) (spread : bool) (l : list expr) : list expr :=
  match variadic n, spread with
  | Some k, false => firstn k l ++ [XLst (skipn k l)]
  | _, _ => l
  end.
(* the fields of a literal, with their names *)
Fixpoint lit_fields (fs : list (string * ty * bool)) (items : list (option string * ex)) : option (list (string * ex)) :=
  match items with
  | [] => Some []
  | (Some x, e) :: r => odo r' <- lit_fields (tl fs) r ;; Some ((x, e) :: r')
  | (None, e) :: r => match fs with
                      | (x, _, _) :: fs' => odo r' <- lit_fields fs' r ;; Some ((x, e) :: r')
                      | [] => None
                      end
  end.

Fixpoint el_e (n : nat) (w : where_) (sc : list (list string)) (e : ex) : option expr :=
  match n with
  | O => None
  | S n' =>
      let E := el_e n' w sc in
      match e with
      | EParen e' => E e'
      | EInt z => Some (XInt z)
      | EStr s => Some (XStr s)
      | EId x =>
          if is_var sc x then Some (if among x (w_heap w) then XDeref (XVar x) else XVar x)
          else if String.eqb x "nil" then Some XNil
          else if String.eqb x "true" then Some (XBool true)
          else if String.eqb x "false" then Some (XBool false)
          else el_glob n' (w_pkg w) x
      | ESel e' f =>
          match e' with
          | EId p => if is_pkg w sc p then el_glob n' p f else odo a <- E e' ;; Some (XSel a f)
          | _ => odo a <- E e' ;; Some (XSel a f)
          end
      | EIdx e' i =>
          odo a <- E e' ;; odo b <- E i ;;
          Some (if match e' with EId x => among x (w_bmaps w) | _ => false end then XIdxZ a b (XBool false) else XIdx a b)
      | ESlc e' lo hi => odo a <- E e' ;; odo l <- oopt E lo ;; odo h <- oopt E hi ;; Some (XSlc a l h)
      | EUn o e' =>
          if String.eqb o "-" then match e' with EInt z => Some (XInt (- z)) | _ => odo a <- E e' ;; Some (XNeg a) end
          else if String.eqb o "!" then odo a <- E e' ;; Some (XNot a)
          else if String.eqb o "*" then odo a <- E e' ;; Some (XDeref a)
          else if String.eqb o "&" then
            match e' with
            | EId x => if is_var sc x then Some (XVar x) else None
            | ELit _ _ => odo a <- E e' ;; Some (XNew a)
            | _ => None
            end
          else None
      | EBin o a b => odo o' <- binop_of o ;; odo a' <- E a ;; odo b' <- E b ;; Some (XBin o' a' b')
      | ELit (Some t) items => el_lit n' w sc t items
      | ELit None _ => None
      | ECall f args spread => el_call n' w sc (unparen f) args spread
      | EFunc ps rs b => el_fun n' w sc ps rs b
      | EType _ | EAssert _ _ => None
      end
  end
(* a function literal, or a function used as a value *)
with el_fun (n : nat) (w : where_) (sc : list (list string)) (ps rs : list (option string * ty)) (b : list st) : option expr :=
  match n with
  | O => None
  | S n' =>
      match b, rs with
      | [StReturn [e]], [(_, rt)] =>
          odo l <- omap (fun_param (w_pkg w)) ps ;;
          odo a <- el_e n' w (map fst l :: sc) e ;;
          if match resolve (w_pkg w) rt with Some (q, x) => String.eqb q "query" && String.eqb x "QVar" | None => false end
          then if existsb snd l then None else Some (XGen (map fst l) a)
          else Some (XFun l a)
      | _, _ => None
      end
  end
(* a package-level name *)
with el_glob (n : nat) (p x : string) : option expr :=
  match n with
  | O => None
  | S n' =>
      match find_val p x with
      | Some v =>
          if vd_const v then odo e <- vd_init v ;; el_e n' (mkWhere (vd_pkg v) (vd_imp v) [] [] []) [] e
          else Some (XGlob (qual p x))
      | None =>
          odo f <- find_fun p x ;; el_fun n' (mkWhere p (fd_imp f) [] [] []) [] (fd_ps f) (fd_rs f) (fd_body f)
      end
  end
with el_lit (n : nat) (w : where_) (sc : list (list string)) (t : ty) (items : list (option string * ex)) : option expr :=
  match n with
  | O => None
  | S n' =>
      odo (u, q) <- under 20 (w_pkg w) t ;;
      match u with
      | TySlice el =>
          let el' := match el with
                     | TyId x => if String.eqb q (w_pkg w) || basic x then el else TyQ q x
                     | _ => el
                     end in
          odo l <- omap (fun i => match snd i with ELit None its => el_lit n' w sc el' its | a => el_e n' w sc a end) items ;;
          Some (XLst l)
      | TyStruct fs =>
          odo d <- lit_fields fs items ;;
          odo l <- omap (fun f => match f with
              | (x, ft, _) =>
                  odo a <- match find (fun p => String.eqb (fst p) x) d with
                           | None => zero 20 q ft
                           | Some (_, e) => if is_nil e && is_slice q ft then zero 20 q ft else el_e n' w sc e
                           end ;;
                  Some (x, a)
              end) fs ;;
          Some (XStc (match resolve (w_pkg w) t with
                      | Some (p, x) => if is_model p x then "Model" else qual p x
                      | None => "struct" end) l)
      | _ => None
      end
  end
with el_call (n : nat) (w : where_) (sc : list (list string)) (f : ex) (args : list ex) (spread : bool) : option expr :=
  match n with
  | O => None
  | S n' =>
      let E := el_e n' w sc in
      match is_type w sc f with
      | Some _ => match args with [a] => E a | _ => None end
      | None =>
          match f with
          | EId x =>
              if is_var sc x then odo g <- E f ;; odo l <- omap E args ;; Some (XDyn g l)
              else if String.eqb x "len" then match args with [a] => odo b <- E a ;; Some (XLen b) | _ => None end
              else if String.eqb x "append" then
                match args with
                | a :: r =>
                    odo b <- E a ;;
                    if spread then match r with [c] => odo d <- E c ;; Some (XAppS b d) | _ => None end
                    else odo l <- omap E r ;; Some (XApp b l)
                | [] => None
                end
              else if String.eqb x "make" then
                match args with
                | t :: r =>
                    odo t' <- is_type w sc t ;;
                    odo (u, q) <- under 20 (w_pkg w) t' ;;
                    match u, r with
                    | TyMap _ _, _ => Some XMap
                    | TySlice el, [k] => odo z <- zero 20 q el ;; odo m <- E k ;; Some (XMake z m)
                    | _, _ => None
                    end
                | [] => None
                end
              else if among x ["copy"; "delete"; "cap"] then None
              else if String.eqb x "panic" then odo l <- omap E args ;; Some (XPrim "panic" l)
              else odo l <- omap E args ;; Some (XCall (qual (w_pkg w) x) (pack x spread l))
          | ESel e' m =>
              let method :=
                if fun_field m then odo g <- E f ;; odo l <- omap E args ;; Some (XDyn g l)
                else odo r <- E e' ;; odo l <- omap E args ;; Some (XMeth r m (pack m spread l)) in
              match e' with
              | EId p =>
                  if is_pkg w sc p then
                    odo path <- import w p ;;
                    odo l <- omap E args ;;
                    Some (if local path then XCall (qual p m) (pack m spread l)
                          else if with_effects p m then XSys (qual p m) l else XPrim (qual p m) l)
                  else method
              | _ => method
              end
          | _ => None
          end
      end
  end.
Definition expr_of (w : where_) (sc : list (list string)) (e : ex) : option expr := el_e 100 w sc e.

(* ---- statements ---- *)

Fixpoint el_lhs (w : where_) (sc : list (list string)) (e : ex) : option lhs :=
  match e with
  | EParen e' => el_lhs w sc e'
  | EId x =>
      if String.eqb x "_" then Some LBlank
      else if negb (is_var sc x) then None
      else Some (if among x (w_heap w) then LDeref (XVar x) else LVar x)
  | ESel e' f => odo l <- el_lhs w sc e' ;; Some (LSel l f)
  | EIdx e' i => odo l <- el_lhs w sc e' ;; odo a <- expr_of w sc i ;; Some (LIdx l a)
  | EUn o e' => if String.eqb o "*" then odo a <- expr_of w sc e' ;; Some (LDeref a) else None
  | _ => None
  end.
(* the right side of an assignment: v, ok := m[k] and v, ok := e.(T) *)
Fixpoint strip_ptr (t : ty) : ty := match t with TyPtr t' => strip_ptr t' | _ => t end.
Definition el_rhs (w : where_) (sc : list (list string)) (two : bool) (rs : list ex) : option (list expr) :=
  match two, rs with
  | true, [EIdx e i] => odo a <- expr_of w sc e ;; odo b <- expr_of w sc i ;; Some [XIdx2 a b]
  | true, [EAssert e t] =>
      odo a <- expr_of w sc e ;;
      match strip_ptr t with
      | TyQ p x => Some [XIs a (qual p x)]
      | TyId x => Some [XIs a (qual (w_pkg w) x)]
      | _ => None
      end
  | _, _ => omap (expr_of w sc) rs
  end.
(* x, y := ...: new variables, unless they are of this block *)
Definition el_define (w : where_) (sc : list (list string)) (ns : list string) (rs : list expr)
  : option (stmt * list (list string)) :=
  match sc with
  | [] => None
  | top :: rest =>
      odo ls <- omap (fun x => if String.eqb x "_" then Some LBlank
                               else if among x top then el_lhs w sc (EId x) else Some (LNew x)) ns ;;
      let boxed := map (fun x => among x (w_heap w) && negb (among x top)) ns in
      odo rs' <- (if existsb (fun b => b) boxed
                  then if Nat.eqb (length ns) (length rs)
                       then Some (map (fun p => if fst p : bool then XNew (snd p) else snd p) (combine boxed rs)) else None
                  else Some rs) ;;
      Some (SAssign ls rs', (filter (fun x => negb (String.eqb x "_")) ns ++ top) :: rest)
  end.
Definition name_of (e : ex) : option string := match e with EId x => Some x | _ => None end.
Definition nth_default_name (k : nat) (l : list string) : string := nth k l "_".
Definition is_call (f : string) (e : ex) : option (ex * ex) :=
  match e with
  | ECall (EId g) [a; b] false => if String.eqb f g then Some (a, b) else None
  | _ => None
  end.
Fixpoint breaks (s : st) : bool :=
  match s with
  | StBreak => true
  | StIf i _ t e => existsb breaks t || existsb breaks e
  | StFor _ _ _ b | StRange _ _ _ b | StBlock b => existsb breaks b
  | StSwitch _ cs => existsb (fun c => existsb breaks (snd c)) cs
  | _ => false
  end.
Definition either (l : list ex) : option ex :=
  match l with
  | [] => None
  | c :: r => Some (fold_left (fun a b => EBin "||" a b) r c)
  end.

Fixpoint el_s (n : nat) (w : where_) (sc : list (list string)) (s : st) : option (stmt * list (list string)) :=
  match n with
  | O => None
  | S n' =>
      let B names b := el_b n' w (names :: sc) b in
      let ret s' := Some (s', sc) in
      (* init statement in a scope of its own *)
      let init i := match i with
                    | None => Some ([], [] :: sc)
                    | Some i' => odo (a, sc') <- el_s n' w ([] :: sc) i' ;; Some ([a], sc')
                    end in
      match s with
      | StVar ns _ (Some es) => odo rs <- omap (expr_of w sc) es ;; el_define w sc ns rs
      | StVar ns (Some t) None => odo z <- zero 20 (w_pkg w) t ;; el_define w sc ns (map (fun _ => z) ns)
      | StVar _ None None => None
      | StDefine l r =>
          odo ns <- omap name_of l ;; odo rs <- el_rhs w sc (Nat.eqb (length l) 2) r ;; el_define w sc ns rs
      | StAssign l r =>
          odo rs <- el_rhs w sc (Nat.eqb (length l) 2) r ;;
          odo ls <- omap (el_lhs w sc) l ;;
          match l, r with
          | [x], [e] =>
              if is_nil e then
                match x with
                | ESel _ f => odo b <- slice_field f ;; ret (SAssign ls (if b : bool then [XLst []] else rs))
                | _ => None
                end
              else ret (SAssign ls rs)
          | _, _ => ret (SAssign ls rs)
          end
      | StExpr e =>
          match is_call "delete" e, is_call "copy" e with
          | Some (m, k), _ => odo l <- el_lhs w sc m ;; odo a <- expr_of w sc k ;; ret (SDelete l a)
          | _, Some (d, x) => odo l <- el_lhs w sc d ;; odo a <- expr_of w sc x ;; ret (SCopy l a)
          | _, _ => odo a <- expr_of w sc e ;; ret (SExpr a)
          end
      | StIf i c t e =>
          odo (i', sc') <- init i ;;
          odo c' <- expr_of w sc' c ;;
          odo t' <- el_b n' w ([] :: sc') t ;; odo e' <- el_b n' w ([] :: sc') e ;; ret (SIf i' c' t' e')
      | StFor i c p b =>
          odo (i', sc') <- init i ;;
          odo c' <- match c with Some x => expr_of w sc' x | None => Some (XBool true) end ;;
          odo p' <- match p with None => Some [] | Some x => odo (a, _) <- el_s n' w sc' x ;; Some [a] end ;;
          odo b' <- el_b n' w ([] :: sc') b ;; ret (SFor i' c' p' b')
      | StRange l e d b =>
          if negb d then None else
          odo ns <- omap name_of l ;;
          odo a <- expr_of w sc e ;;
          odo b' <- el_b n' w ([] :: filter (fun x => negb (String.eqb x "_")) ns :: sc) b ;;
          ret (SRange (nth 0 ns "_") (nth 1 ns "_") a b')
      | StSwitch tag cs =>
          if breaks s then None else
          odo r <- el_cases n' w sc tag cs ;;
          match r, cs with
          | _, [] => ret (SBlock [])
          | [x], (Some _, _) :: _ => ret x
          | _, _ => None
          end
      | StReturn es =>
          odo l <- omap (fun p => match p with
                    | (e, Some t) => if is_nil e && is_slice (w_pkg w) t then zero 20 (w_pkg w) t else expr_of w sc e
                    | (e, None) => expr_of w sc e
                    end)
            (combine es (if Nat.eqb (length es) (length (w_rs w)) then map Some (w_rs w) else map (fun _ => None) es)) ;;
          ret (SReturn l)
      | StBreak => ret SBreak
      | StContinue => ret SContinue
      | StGoto l => ret (SGoto l)
      | StLabel l => ret (SLabel l)
      | StBlock b => odo b' <- B [] b ;; ret (SBlock b')
      | StDefer e =>
          match e with
          | ECall (EFunc _ _ b) [] _ => odo b' <- B [] b ;; ret (SDefer b')
          | ECall _ [] _ => odo a <- expr_of w sc e ;; ret (SDefer [SExpr a])
          | _ => None
          end
      end
  end
with el_b (n : nat) (w : where_) (sc : list (list string)) (b : list st) : option (list stmt) :=
  match n with
  | O => None
  | S n' =>
      match b with
      | [] => Some []
      | s :: r => odo (a, sc') <- el_s n' w sc s ;; odo r' <- el_b n' w sc' r ;; Some (a :: r')
      end
  end
with el_cases (n : nat) (w : where_) (sc : list (list string)) (tag : option ex) (cs : list (option (list ex) * list st))
  : option (list stmt) :=
  match n with
  | O => None
  | S n' =>
      match cs with
      | [] => Some []
      | [(None, b)] => el_b n' w ([] :: sc) b
      | (None, _) :: _ => None
      | (Some l, b) :: r =>
          odo c <- either (map (fun x => match tag with Some t => EBin "==" t x | None => x end) l) ;;
          odo c' <- expr_of w sc c ;;
          odo b' <- el_b n' w ([] :: sc) b ;;
          odo r' <- el_cases n' w sc tag r ;;
          Some [SIf [] c' b' r']
      end
  end.

(* ---- functions and programs ---- *)

Definition key_of (f : fdecl) : option string :=
  match fd_recv f with
  | None => Some (qual (fd_pkg f) (fd_name f))
  | Some (_, t) => match strip_ptr t with TyId x => Some (qual (fd_pkg f) (qual x (fd_name f))) | _ => None end
  end.
Definition el_func (f : fdecl) : option (string * func) :=
  let ps := match fd_recv f with Some r => [r] | None => [] end ++ fd_ps f in
  let names := map (fun p => match fst p with Some x => x | None => "_" end) ps in
  let vars l := filter (fun x => negb (String.eqb x "_")) l in
  let rn := flat_map (fun p => match fst p with Some x => [x] | None => [] end) (fd_rs f) in
  let heap := flat_map addr_s (fd_body f) in
  let top := vars names ++ rn in
  if existsb (fun x => among x heap) top then None else
  odo key <- key_of f ;;
  odo res <- match fd_rs f with
             | (Some _, _) :: _ =>
                 omap (fun p => match p with (Some x, t) => odo z <- zero 20 (fd_pkg f) t ;; Some (x, z) | (None, _) => None end) (fd_rs f)
             | _ => Some []
             end ;;
  odo b <- el_b 500 (mkWhere (fd_pkg f) (fd_imp f) heap (flat_map (maps_s (fd_pkg f)) (fd_body f)) (map snd (fd_rs f)))
             [top] (fd_body f) ;;
  Some (key, mkFunc names res (match fd_recv f with Some (_, TyPtr _) => true | _ => false end) b).

Definition el_funcs : option (list (string * func)) :=
  omap el_func (flat_map (fun d => match d with DFunc f => [f] | _ => [] end) ds).
Definition el_globals : option (list (string * expr)) :=
  omap (fun v => odo e <- vd_init v ;; odo a <- expr_of (mkWhere (vd_pkg v) (vd_imp v) [] [] []) [] e ;;
                 Some (qual (vd_pkg v) (vd_name v), a))
    (flat_map (fun d => match d with DVal v => if vd_const v then [] else [v] | _ => [] end) ds).
Definition el_embedded : list (string * list string) :=
  flat_map (fun d => match d with
    | DType p n (TyStruct fs) =>
        match map (fun f => fst (fst f)) (filter snd fs) with [] => [] | l => [(qual p n, l)] end
    | _ => [] end) ds.
End Names.

(* From the files to the functions, the package-level variables and the embedded
   fields of the struct types. *)
Definition translate (files : list (string * string))
  : option (list (string * func) * list (string * expr) * list (string * list string)) :=
  odo l <- omap (fun f => parse (snd f)) files ;;
  let ds := concat l in
  odo fs <- el_funcs ds ;; odo gs <- el_globals ds ;; Some (fs, gs, el_embedded ds).
