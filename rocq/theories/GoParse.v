(* Reading Go.  [translate] takes the bytes of the Go files and gives the program of
   GoLang.v they stand for, or nothing when they use something that is not covered.
   It is an independent second version of tools/go2coq.py; PropBytes.v shows that the
   two agree on the files of the repository.

   What is resolved here, because GoLang.v has no types: names of packages, types,
   functions and package-level values; zero values of fields left out of literals and
   of variables without initial value; nil of slice type is the empty slice, of []byte
   the empty string; reads of maps to bool; conversions T(e) are dropped; arguments of
   variadic parameters are packed into a slice; x op= e and x++ are written out; switch
   is a chain of ifs; variables whose address is taken live in the heap; calls of
   fields of function type are told from method calls; functions with effects (packages
   os and os/exec, printing) from those without; function literals are a single return;
   a struct type with the fields dim and nodes and methods returning them is a Model. *)
From Verif Require Import GoBase Cnf GoLang.
Local Open Scope string_scope.
Local Open Scope Z_scope.
Local Open Scope list_scope.

(* ---- tokens ---- *)

Inductive tok :=
| TId (s : string) | TKw (s : string) | TInt (z : Z) | TStr (s : string) | TOp (s : string).

Definition among (x : string) (l : list string) : bool := existsb (String.eqb x) l.
Definition keywords : list string :=
  ["break"; "case"; "const"; "continue"; "default"; "defer"; "else"; "for"; "func"; "go"; "goto"; "if"; "import";
   "interface"; "map"; "package"; "range"; "return"; "struct"; "switch"; "type"; "var"; "fallthrough"; "select"; "chan"].
Definition code (c : ascii) : Z := Z.of_N (N_of_ascii c).
Definition is_digit (c : ascii) : bool := (48 <=? code c) && (code c <=? 57).
Definition is_letter (c : ascii) : bool :=
  ((65 <=? code c) && (code c <=? 90)) || ((97 <=? code c) && (code c <=? 122)) || (code c =? 95).
Definition is_blank (c : ascii) : bool := (code c =? 32) || (code c =? 9) || (code c =? 13).
Definition is_nl (c : ascii) : bool := code c =? 10.

Fixpoint span (p : ascii -> bool) (s : string) : string * string :=
  match s with
  | String c r => if p c then let (a, b) := span p r in (String c a, b) else (EmptyString, s)
  | EmptyString => (EmptyString, EmptyString)
  end.
Fixpoint number (s : string) (z : Z) : Z :=
  match s with
  | String c r => number r (10 * z + (code c - 48))
  | EmptyString => z
  end.
(* the rest of an interpreted string literal, after its opening quote *)
Fixpoint quoted (s : string) : option (string * string) :=
  match s with
  | String c r =>
      if code c =? 34 then Some (EmptyString, r)
      else if is_nl c then None
      else if code c =? 92 then
        match r with
        | String d r' =>
            let put x := option_map (fun p => (String x (fst p), snd p)) (quoted r') in
            if code d =? 110 then put (ascii_of_N 10)
            else if code d =? 116 then put (ascii_of_N 9)
            else if (code d =? 34) || (code d =? 92) then put d
            else None
        | EmptyString => None
        end
      else option_map (fun p => (String c (fst p), snd p)) (quoted r)
  | EmptyString => None
  end.
Definition ops3 : list string := ["..."].
Definition ops2 : list string := ["&&"; "||"; "=="; "!="; "<="; ">="; ":="; "+="; "-="; "*="; "/="; "++"; "--"; "<-"].
Definition ops1 : list string :=
  ["+"; "-"; "*"; "/"; "%"; "&"; "|"; "^"; "<"; ">"; "="; "!"; "("; ")"; "["; "]"; "{"; "}"; ","; ";"; "."; ":"].
Definition take (n : nat) (s : string) : string := substring 0 n s.
Fixpoint drop (n : nat) (s : string) : string :=
  match n, s with
  | S n', String _ r => drop n' r
  | _, _ => s
  end.
(* a newline after this token ends the statement *)
Definition ends (t : tok) : bool :=
  match t with
  | TId _ | TInt _ | TStr _ => true
  | TKw s => among s ["break"; "continue"; "return"; "fallthrough"]
  | TOp s => among s ["++"; "--"; ")"; "]"; "}"]
  end.
Definition semi (acc : list tok) : list tok :=
  match acc with
  | t :: _ => if ends t then TOp ";" :: acc else acc
  | [] => acc
  end.
(* the tokens so far in reverse order *)
Fixpoint lex (n : nat) (s : string) (acc : list tok) : option (list tok) :=
  match n with
  | O => None
  | S n' =>
      match s with
      | EmptyString => Some (rev (semi acc))
      | String c r =>
          if is_nl c then lex n' r (semi acc)
          else if is_blank c then lex n' r acc
          else if String.eqb (take 2 s) "//" then lex n' (snd (span (fun c => negb (is_nl c)) s)) acc
          else if String.eqb (take 2 s) "/*" then None
          else if is_letter c then
            let (w, r') := span (fun c => is_letter c || is_digit c) s in
            lex n' r' ((if among w keywords then TKw w else TId w) :: acc)
          else if is_digit c then
            let (w, r') := span is_digit s in lex n' r' (TInt (number w 0) :: acc)
          else if code c =? 34 then
            match quoted r with Some (w, r') => lex n' r' (TStr w :: acc) | None => None end
          else if among (take 3 s) ops3 then lex n' (drop 3 s) (TOp (take 3 s) :: acc)
          else if among (take 2 s) ops2 then lex n' (drop 2 s) (TOp (take 2 s) :: acc)
          else if among (take 1 s) ops1 then lex n' (drop 1 s) (TOp (take 1 s) :: acc)
          else None
      end
  end.
Definition tokens (s : string) : option (list tok) := lex (S (S (String.length s))) s [].

(* ---- syntax trees ---- *)

Inductive ty :=
| TyId (n : string) | TyQ (p n : string) | TyPtr (t : ty) | TySlice (t : ty) | TyMap (k v : ty)
| TyFunc | TyStruct (fs : list (string * ty * bool))    (* embedded? *)
| TyIface | TyDots (t : ty).

Inductive ex :=
| EInt (z : Z) | EStr (s : string) | EId (x : string) | ESel (e : ex) (f : string) | EIdx (e i : ex)
| ESlc (e : ex) (lo hi : option ex) | EUn (o : string) (e : ex) | EBin (o : string) (a b : ex)
| ECall (f : ex) (args : list ex) (spread : bool)
| ELit (t : option ty) (items : list (option string * ex))
| EType (t : ty)
| EFunc (ps rs : list (option string * ty)) (b : list st)
| EParen (e : ex) | EAssert (e : ex) (t : ty)
with st :=
| StVar (ns : list string) (t : option ty) (es : option (list ex))
| StDefine (l r : list ex) | StAssign (l r : list ex) | StExpr (e : ex)
| StIf (init : option st) (c : ex) (t e : list st)
| StFor (init : option st) (c : option ex) (post : option st) (b : list st)
| StRange (l : list ex) (e : ex) (def : bool) (b : list st)
| StSwitch (tag : option ex) (cases : list (option (list ex) * list st))
| StReturn (es : list ex) | StBreak | StContinue | StGoto (l : string) | StLabel (l : string)
| StBlock (b : list st) | StDefer (e : ex).

(* ---- parsing ---- *)

Definition P (A : Type) : Type := list tok -> option (A * list tok).
Definition pret {A} (a : A) : P A := fun ts => Some (a, ts).
Definition pfail {A} : P A := fun _ => None.
(* notations, so that nothing is evaluated before it is applied to the tokens *)
Notation "'pdo' x <- m ;; k" := (fun ts => match m ts with Some (x, ts') => k ts' | None => None end)
  (at level 200, x pattern, m at level 100, k at level 200).
Definition tok_is (t : tok) (s : string) : bool :=
  match t with TOp x | TKw x => String.eqb x s | _ => false end.
(* is the next token (the one after it) s? *)
Definition next (s : string) : P bool := fun ts => Some (match ts with t :: _ => tok_is t s | [] => false end, ts).
Definition next2 (s : string) : P bool := fun ts => Some (match ts with _ :: t :: _ => tok_is t s | _ => false end, ts).
Definition next_in (l : list string) : P bool :=
  fun ts => Some (match ts with t :: _ => existsb (tok_is t) l | [] => false end, ts).
Definition next_id : P bool := fun ts => Some (match ts with TId _ :: _ => true | _ => false end, ts).
Definition advance : P tok := fun ts => match ts with t :: r => Some (t, r) | [] => None end.
Definition accept (s : string) : P bool :=
  fun ts => match ts with
            | t :: r => if tok_is t s then Some (true, r) else Some (false, ts)
            | [] => Some (false, [])
            end.
Definition expect (s : string) : P unit := fun ts => match ts with t :: r => if tok_is t s then Some (tt, r) else None | [] => None end.
Definition ident : P string := fun ts => match ts with TId x :: r => Some (x, r) | _ => None end.
Notation pif c a b := (fun ts => match c ts with Some (true, ts') => a ts' | Some (false, ts') => b ts' | None => None end).
Definition skip_semi : P unit := pif (next "}") (pret tt) (expect ";").

(* item, item, ... up to the closing token *)
Fixpoint listed {A} (n : nat) (close : string) (item : P A) : P (list A) :=
  match n with
  | O => pfail
  | S n' => pif (accept close) (pret [])
      (pdo a <- item ;;
       pdo _ <- pif (next close) (pret tt) (expect ",") ;;
       pdo r <- listed n' close item ;; pret (a :: r))
  end.
(* item, item, ... *)
Fixpoint comma {A} (n : nat) (item : P A) : P (list A) :=
  match n with
  | O => pfail
  | S n' => pdo a <- item ;; pif (accept ",") (pdo r <- comma n' item ;; pret (a :: r)) (pret [a])
  end.
(* up to the brace that closes this one *)
Fixpoint skip_braces (n : nat) (d : nat) : P unit :=
  match n with
  | O => pfail
  | S n' => pdo t <- advance ;;
      if tok_is t "{" then skip_braces n' (S d)
      else if tok_is t "}" then match d with O => pret tt | S d' => skip_braces n' d' end
      else skip_braces n' d
  end.

(* names before types: a, b int *)
Fixpoint name_params (last : option ty) (l : list (ty * option ty)) : option (list (option string * ty)) :=
  match l with
  | [] => Some []
  | (TyId x, t) :: r =>
      let last' := match t with Some _ => t | None => last end in
      match last', name_params last' r with
      | Some t', Some r' => Some ((Some x, t') :: r')
      | _, _ => None
      end
  | _ => None
  end.
Definition params_of (l : list (ty * option ty)) : option (list (option string * ty)) :=
  if existsb (fun p => match snd p with Some _ => true | None => false end) l
  then option_map (@rev _) (name_params None (rev l))
  else Some (map (fun p => (None, fst p)) l).

Fixpoint p_type (n : nat) : P ty :=
  match n with
  | O => pfail
  | S n' =>
      pif (accept "*") (pdo t <- p_type n' ;; pret (TyPtr t))
      (pif (accept "...") (pdo t <- p_type n' ;; pret (TyDots t))
      (pif (accept "(") (pdo t <- p_type n' ;; pdo _ <- expect ")" ;; pret t)
      (pif (accept "[") (pdo _ <- expect "]" ;; pdo t <- p_type n' ;; pret (TySlice t))
      (pif (accept "map") (pdo _ <- expect "[" ;; pdo k <- p_type n' ;; pdo _ <- expect "]" ;; pdo v <- p_type n' ;; pret (TyMap k v))
      (pif (accept "func") (pdo _ <- p_params n' ;; pdo _ <- p_results n' ;; pret TyFunc)
      (pif (accept "struct") (pdo _ <- expect "{" ;; pdo fs <- p_fields n' ;; pret (TyStruct fs))
      (pif (accept "interface") (pdo _ <- expect "{" ;; pdo _ <- skip_braces 10000 0 ;; pret TyIface)
      (pdo x <- ident ;; pif (accept ".") (pdo y <- ident ;; pret (TyQ x y)) (pret (TyId x))))))))))
  end
with p_fields (n : nat) : P (list (string * ty * bool)) :=
  match n with
  | O => pfail
  | S n' =>
      pif (accept "}") (pret [])
      (pdo fs <-
         pif (next2 ";") (pdo x <- ident ;; pret [(x, TyId x, true)])
         (pif (next2 ".")
            (pdo t <- p_type n' ;; match t with TyQ _ x => pret [(x, t, true)] | _ => pfail end)
            (pdo ns <- comma n' ident ;; pdo t <- p_type n' ;; pret (map (fun x => (x, t, false)) ns))) ;;
       pdo _ <- skip_semi ;; pdo r <- p_fields n' ;; pret (fs ++ r))
  end
with p_params (n : nat) : P (list (option string * ty)) :=
  match n with
  | O => pfail
  | S n' =>
      pdo _ <- expect "(" ;;
      pdo l <- listed n' ")" (pdo t <- p_type n' ;; pif (next_in [","; ")"]) (pret (t, None)) (pdo u <- p_type n' ;; pret (t, Some u))) ;;
      match params_of l with Some ps => pret ps | None => pfail end
  end
with p_results (n : nat) : P (list (option string * ty)) :=
  match n with
  | O => pfail
  | S n' =>
      pif (next "(") (p_params n')
      (pif (next_in ["{"; ";"; ")"; ","]) (pret []) (pdo t <- p_type n' ;; pret [(None, t)]))
  end.

Definition prec (o : string) : nat :=
  if among o ["||"] then 1 else if among o ["&&"] then 2 else if among o ["=="; "!="; "<"; "<="; ">"; ">="] then 3
  else if among o ["+"; "-"] then 4 else if among o ["*"; "/"; "%"] then 5 else 0.
Definition lit_type (e : ex) : option ty :=
  match e with
  | EId x => Some (TyId x)
  | ESel (EId p) x => Some (TyQ p x)
  | _ => None
  end.
Definition is_label (s : st) : bool := match s with StLabel _ => true | _ => false end.
Definition first_is {A} (f : A -> bool) : P A -> P A := fun m => pdo a <- m ;; if f a then pret a else pfail.

(* [nl]: no composite literal here (the head of an if, for or switch) *)
Fixpoint p_expr (n : nat) (nl : bool) (p : nat) : P ex :=
  match n with
  | O => pfail
  | S n' => pdo l <- p_unary n' nl ;; p_bin n' nl p l
  end
with p_bin (n : nat) (nl : bool) (p : nat) (l : ex) : P ex :=
  match n with
  | O => pfail
  | S n' => fun ts =>
      match ts with
      | TOp o :: r =>
          if (1 <=? prec o)%nat && (p <=? prec o)%nat
          then (pdo e <- p_expr n' nl (S (prec o)) ;; p_bin n' nl p (EBin o l e)) r
          else Some (l, ts)
      | _ => Some (l, ts)
      end
  end
with p_unary (n : nat) (nl : bool) : P ex :=
  match n with
  | O => pfail
  | S n' => fun ts =>
      match ts with
      | TOp o :: r =>
          if among o ["-"; "!"; "&"; "*"; "+"] then (pdo e <- p_unary n' nl ;; pret (EUn o e)) r
          else p_primary n' nl ts
      | _ => p_primary n' nl ts
      end
  end
with p_primary (n : nat) (nl : bool) : P ex :=
  match n with
  | O => pfail
  | S n' => fun ts =>
      match ts with
      | TInt z :: r => p_post n' nl (EInt z) r
      | TStr s :: r => p_post n' nl (EStr s) r
      | TId x :: r => p_post n' nl (EId x) r
      | TOp o :: r =>
          if String.eqb o "(" then (pdo e <- p_expr n' false 1 ;; pdo _ <- expect ")" ;; p_post n' nl (EParen e)) r
          else if String.eqb o "[" then
            (pdo t <- p_type n' ;; pdo e <- pif (next "{") (p_lit n' (Some t)) (pret (EType t)) ;; p_post n' nl e) ts
          else None
      | TKw k :: r =>
          if String.eqb k "func" then
            (pdo ps <- p_params n' ;; pdo rs <- p_results n' ;; pdo b <- p_block n' ;; p_post n' nl (EFunc ps rs b)) r
          else if among k ["map"; "struct"] then
            (pdo t <- p_type n' ;; pdo e <- pif (next "{") (p_lit n' (Some t)) (pret (EType t)) ;; p_post n' nl e) ts
          else None
      | [] => None
      end
  end
with p_post (n : nat) (nl : bool) (e : ex) : P ex :=
  match n with
  | O => pfail
  | S n' =>
      pif (accept ".")
        (pif (accept "(")
           (pdo t <- p_type n' ;; pdo _ <- expect ")" ;; p_post n' nl (EAssert e t))
           (pdo f <- ident ;; p_post n' nl (ESel e f)))
      (pif (accept "[")
         (pif (accept ":")
            (pdo hi <- pif (next "]") (pret None) (pdo h <- p_expr n' false 1 ;; pret (Some h)) ;;
             pdo _ <- expect "]" ;; p_post n' nl (ESlc e None hi))
            (pdo a <- p_expr n' false 1 ;;
             pif (accept ":")
               (pdo hi <- pif (next "]") (pret None) (pdo h <- p_expr n' false 1 ;; pret (Some h)) ;;
                pdo _ <- expect "]" ;; p_post n' nl (ESlc e (Some a) hi))
               (pdo _ <- expect "]" ;; p_post n' nl (EIdx e a))))
      (pif (accept "(")
         (pdo l <- listed n' ")" (pdo a <- p_expr n' false 1 ;; pdo s <- accept "..." ;; pret (a, s)) ;;
          p_post n' nl (ECall e (map fst l) (existsb snd l)))
      (pdo b <- next "{" ;;
       match b && negb nl, lit_type e with
       | true, Some t => pdo e' <- p_lit n' (Some t) ;; p_post n' nl e'
       | _, _ => pret e
       end)))
  end
with p_lit (n : nat) (t : option ty) : P ex :=
  match n with
  | O => pfail
  | S n' =>
      let el := pif (next "{") (p_lit n' None) (p_expr n' false 1) in
      pdo _ <- expect "{" ;;
      pdo items <- listed n' "}"
        (pdo a <- el ;;
         pif (accept ":") (match a with EId x => pdo b <- el ;; pret (Some x, b) | _ => pfail end) (pret (None, a))) ;;
      pret (ELit t items)
  end
with p_block (n : nat) : P (list st) :=
  match n with
  | O => pfail
  | S n' => pdo _ <- expect "{" ;; pdo l <- p_stmts n' ;; pdo _ <- expect "}" ;; pret l
  end
with p_stmts (n : nat) : P (list st) :=
  match n with
  | O => pfail
  | S n' =>
      pif (next_in ["}"; "case"; "default"]) (pret [])
      (pif (accept ";") (p_stmts n')
      (pdo s <- p_stmt n' ;;
       pdo _ <- (if is_label s then pret tt else skip_semi) ;;
       pdo r <- p_stmts n' ;; pret (s :: r)))
  end
with p_simple (n : nat) (nl : bool) : P st :=
  match n with
  | O => pfail
  | S n' =>
      pif (accept "range") (pdo e <- p_expr n' nl 1 ;; pret (StRange [] e true []))
      (pdo l <- comma n' (p_expr n' nl 1) ;;
       pif (accept ":=")
         (pif (accept "range") (pdo e <- p_expr n' nl 1 ;; pret (StRange l e true []))
            (pdo r <- comma n' (p_expr n' nl 1) ;; pret (StDefine l r)))
       (pif (accept "=")
         (pif (accept "range") (pdo e <- p_expr n' nl 1 ;; pret (StRange l e false []))
            (pdo r <- comma n' (p_expr n' nl 1) ;; pret (StAssign l r)))
       (match l with
        | [x] =>
            let op o := pdo e <- p_expr n' nl 1 ;; pret (StAssign [x] [EBin o x e]) in
            pif (accept "+=") (op "+") (pif (accept "-=") (op "-") (pif (accept "*=") (op "*") (pif (accept "/=") (op "/")
            (pif (accept "++") (pret (StAssign [x] [EBin "+" x (EInt 1)]))
            (pif (accept "--") (pret (StAssign [x] [EBin "-" x (EInt 1)]))
            (pret (StExpr x)))))))
        | _ => pfail
        end)))
  end
with p_stmt (n : nat) : P st :=
  match n with
  | O => pfail
  | S n' =>
      pif (accept "var")
        (pdo ns <- comma n' ident ;;
         pdo t <- pif (next "=") (pret None) (pdo t <- p_type n' ;; pret (Some t)) ;;
         pdo e <- pif (accept "=") (pdo l <- comma n' (p_expr n' false 1) ;; pret (Some l)) (pret None) ;;
         pret (StVar ns t e))
      (pif (accept "return")
        (pdo l <- pif (next_in [";"; "}"]) (pret []) (comma n' (p_expr n' false 1)) ;; pret (StReturn l))
      (pif (accept "break") (pif next_id pfail (pret StBreak))
      (pif (accept "continue") (pif next_id pfail (pret StContinue))
      (pif (accept "goto") (pdo x <- ident ;; pret (StGoto x))
      (pif (accept "defer") (pdo e <- p_expr n' false 1 ;; pret (StDefer e))
      (pif (next "if") (p_if n')
      (pif (accept "for")
        (pif (next "{") (pdo b <- p_block n' ;; pret (StFor None None None b))
         (pdo init <- pif (next ";") (pret None) (pdo s <- p_simple n' true ;; pret (Some s)) ;;
          pif (accept ";")
            (pdo c <- pif (next ";") (pret None) (pdo e <- p_expr n' true 1 ;; pret (Some e)) ;;
             pdo _ <- expect ";" ;;
             pdo post <- pif (next "{") (pret None) (pdo s <- p_simple n' true ;; pret (Some s)) ;;
             pdo b <- p_block n' ;; pret (StFor init c post b))
            (pdo b <- p_block n' ;;
             match init with
             | Some (StRange l e d _) => pret (StRange l e d b)
             | Some (StExpr e) => pret (StFor None (Some e) None b)
             | _ => pfail
             end)))
      (pif (accept "switch")
        (pdo tag <- pif (next "{") (pret None) (pdo e <- p_expr n' true 1 ;; pret (Some e)) ;;
         pdo _ <- expect "{" ;; pdo cs <- p_cases n' ;; pret (StSwitch tag cs))
      (pif (next "{") (pdo b <- p_block n' ;; pret (StBlock b))
      (pdo i <- next_id ;; pdo c <- next2 ":" ;;
       if i && c then pdo x <- ident ;; pdo _ <- expect ":" ;; pret (StLabel x)
       else p_simple n' false))))))))))
  end
with p_cases (n : nat) : P (list (option (list ex) * list st)) :=
  match n with
  | O => pfail
  | S n' =>
      pif (accept "}") (pret [])
      (pdo c <- pif (accept "default") (pret None) (pdo _ <- expect "case" ;; pdo l <- comma n' (p_expr n' false 1) ;; pret (Some l)) ;;
       pdo _ <- expect ":" ;; pdo b <- p_stmts n' ;; pdo r <- p_cases n' ;; pret ((c, b) :: r))
  end
with p_if (n : nat) : P st :=
  match n with
  | O => pfail
  | S n' =>
      pdo _ <- expect "if" ;;
      pdo a <- p_simple n' true ;;
      pdo ic <- pif (accept ";") (pdo c <- p_simple n' true ;; pret (Some a, c)) (pret (None, a)) ;;
      match snd ic with
      | StExpr c =>
          pdo t <- p_block n' ;;
          pdo e <- pif (accept "else") (pif (next "if") (pdo s <- p_if n' ;; pret [s]) (p_block n')) (pret []) ;;
          pret (StIf (fst ic) c t e)
      | _ => pfail
      end
  end.

(* ---- files ---- *)

Record fdecl := mkFdecl
  { fd_pkg : string; fd_imp : list (string * string);   (* imports: name, path *)
    fd_recv : option (option string * ty); fd_name : string;
    fd_ps : list (option string * ty); fd_rs : list (option string * ty); fd_body : list st }.
Record vdecl := mkVdecl
  { vd_pkg : string; vd_imp : list (string * string); vd_name : string; vd_const : bool; vd_init : option ex }.
Inductive decl :=
| DType (p n : string) (t : ty) | DVal (v : vdecl) | DFunc (f : fdecl).

(* the last part of an import path *)
Fixpoint last_part (s acc : string) : string :=
  match s with
  | String c r => if code c =? 47 then last_part r EmptyString else last_part r (acc ++ String c EmptyString)
  | EmptyString => acc
  end.
Definition p_import : P (string * string) :=
  pdo t <- advance ;; match t with TStr s => pret (last_part s EmptyString, s) | _ => pfail end.
(* item; item; ... ) or one item *)
Fixpoint group_items {A} (n : nat) (item : P A) : P (list A) :=
  match n with
  | O => pfail
  | S n' => pif (accept ")") (pret []) (pdo a <- item ;; pdo _ <- expect ";" ;; pdo r <- group_items n' item ;; pret (a :: r))
  end.
Definition grouped {A} (n : nat) (item : P A) : P (list A) :=
  pif (accept "(") (group_items n item) (pdo a <- item ;; pret [a]).
Fixpoint p_imports (n : nat) : P (list (string * string)) :=
  match n with
  | O => pfail
  | S n' => pif (accept "import") (pdo l <- grouped n' p_import ;; pdo _ <- expect ";" ;; pdo r <- p_imports n' ;; pret (l ++ r)) (pret [])
  end.
(* constants of a group: without expression the last one is repeated; iota counts *)
Fixpoint consts (pkg : string) (imp : list (string * string)) (k : Z) (last : option ex) (l : list (string * option ex)) : list decl :=
  match l with
  | [] => []
  | (x, e) :: r =>
      let last' := match e with Some _ => e | None => last end in
      let v := match last' with Some (EId i) => if String.eqb i "iota" then Some (EInt k) else last' | _ => last' end in
      DVal (mkVdecl pkg imp x true v) :: consts pkg imp (k + 1) last' r
  end.
Fixpoint p_decls (n : nat) (pkg : string) (imp : list (string * string)) : P (list decl) :=
  match n with
  | O => pfail
  | S n' => fun ts =>
      match ts with
      | [] => Some ([], [])
      | _ =>
        (pdo l <-
          pif (accept "type")
            (pdo l <- grouped n' (pdo x <- ident ;; pdo t <- p_type n' ;; pret (DType pkg x t)) ;; pdo _ <- expect ";" ;; pret l)
          (pif (accept "const")
            (pdo l <- grouped n' (pdo x <- ident ;;
                pdo _ <- pif (next_in ["="; ";"]) (pret tt) (pdo _ <- p_type n' ;; pret tt) ;;
                pdo e <- pif (accept "=") (pdo e <- p_expr n' false 1 ;; pret (Some e)) (pret None) ;; pret (x, e)) ;;
             pdo _ <- expect ";" ;; pret (consts pkg imp 0 None l))
          (pif (accept "var")
            (pdo l <- grouped n' (pdo x <- ident ;;
                pdo _ <- pif (next "=") (pret tt) (pdo _ <- p_type n' ;; pret tt) ;;
                pdo e <- pif (accept "=") (pdo e <- p_expr n' false 1 ;; pret (Some e)) (pret None) ;;
                pret (DVal (mkVdecl pkg imp x false e))) ;;
             pdo _ <- expect ";" ;; pret l)
          (pdo _ <- expect "func" ;;
           pdo recv <- pif (next "(") (pdo l <- p_params n' ;; match l with [r] => pret (Some r) | _ => pfail end) (pret None) ;;
           pdo x <- ident ;; pdo ps <- p_params n' ;; pdo rs <- p_results n' ;; pdo b <- p_block n' ;; pdo _ <- accept ";" ;;
           pret [DFunc (mkFdecl pkg imp recv x ps rs b)]))) ;;
         pdo r <- p_decls n' pkg imp ;; pret (l ++ r)) ts
      end
  end.
Definition p_file (n : nat) : P (list decl) :=
  pdo _ <- expect "package" ;; pdo pkg <- ident ;; pdo _ <- expect ";" ;;
  pdo imp <- p_imports n ;; p_decls n pkg imp.
Definition parse (s : string) : option (list decl) :=
  match tokens s with
  | Some ts => match p_file 3000 ts with Some (ds, []) => Some ds | _ => None end
  | None => None
  end.
