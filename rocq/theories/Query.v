(* Model of query/*.go: partial instances, model nodes, the scoper, the variable
   manager and the context. *)
From Verif Require Import GoBase.
Local Open Scope string_scope.
Local Open Scope Z_scope.

(* ---- query/instances.go ---- *)

(* query/instances.go:9,12; FeatV is a Go int, so values other than the three
   named ones exist; theorems say where validity is needed. *)
Notation QVar := string (only parsing).
Notation FeatV := Z (only parsing).
(* query/instances.go:22-29 *)
Definition BOT : FeatV := 0.
Definition ZERO : FeatV := 1.
Definition ONE : FeatV := 2.

(* query/instances.go:16-19 *)
Record QConst := mkQConst { cID : string; cVal : list FeatV }.

(* query/instances.go:32-40.  make() gives zeros; the loop writes feats[0] each
   time (sic), which is a write of BOT=0. For a negative dim the
   text panics (C61_negative_dim). *)
Definition AllBotConst (dim : nat) : QConst :=
  let feats := repeat 0 dim in
  let feats := fold_left (fun f _ => list_set f 0 BOT) (seq 0 dim) feats in
  mkQConst "" feats.

(* query/instances.go:43-50 *)
Definition IsFull (c : QConst) : bool := forallb (fun ft => negb (ft =? BOT)) (cVal c).

(* query/instances.go:53-66 *)
Definition featString (ft : FeatV) : string :=
  if ft =? BOT then "_" else if ft =? ZERO then "0" else if ft =? ONE then "1" else "".
Definition AsString (c : QConst) : string :=
  fold_left (fun s ft => s ++ featString ft) (cVal c) "".

(* query/instances.go:69-77 *)
Definition BotCount (c : QConst) : Z :=
  fold_left (fun count ft => if ft =? BOT then count + 1 else count) (cVal c) 0.

(* query/instances.go:85-91 *)
Fixpoint equal_vals (a b : list FeatV) : bool :=
  match a, b with
  | [], _ => true
  | x :: a', y :: b' => (x =? y) && equal_vals a' b'
  | _ :: _, [] => false
  end.

(* query/instances.go:80-92 *)
Definition EqualValue (c t : QConst) : bool :=
  if (length (cVal c) =? length (cVal t))%nat then equal_vals (cVal c) (cVal t)
  else false.

(* query/instances.go:96-111; None is the nil error. *)
Fixpoint validate_from (i : Z) (d : nat) (consts : list QConst) : option string :=
  match consts with
  | [] => None
  | c :: r =>
      if (length (cVal c) =? d)%nat then validate_from (i + 1) d r
      else Some ("constant" ++ itoa (i + 1) ++ ": wrong dim "
                 ++ itoa (Z.of_nat (length (cVal c))) ++ " ("
                 ++ itoa (Z.of_nat d) ++ " feats in context)")
  end.
Definition ValidateConstsDim (d : nat) (consts : list QConst) : option string :=
  validate_from 0 d consts.

(* ---- query/model.go ---- *)

(* query/model.go:16-28 *)
Record node := mkNode { nValue : bool; nFeat : Z; zChild : Z; oChild : Z }.
(* query/model.go:32 *)
Definition NoChild : Z := -1.
(* query/model.go:35-37 *)
Definition IsLeaf (n : node) : bool := (zChild n <? 0) || (oChild n <? 0).

(* ---- query/scoper.go ---- *)

(* query/scoper.go:42-46; the value slice aliases the iterator's buffer in Go;
   here it is a copy.  Buffers.v models the buffers and proves the two equivalent
   for encoding. *)
Record scope := mkScope { sTarget : string; sValue : list FeatV; sIdx : Z }.

(* query/scoper.go:36-40 without the string builder, which is empty between
   calls.  vars: QVar -> stack level. *)
Record scoper := mkScoper { scopes : list scope; svars : list (string * nat) }.

Fixpoint slookup (m : list (string * nat)) (v : string) : option nat :=
  match m with
  | [] => None
  | (k, n) :: r => if String.eqb k v then Some n else slookup r v
  end.

(* query/scoper.go:60-63 *)
Definition scope_suffix (s : scope) : string :=
  String us EmptyString ++ sTarget s ++ String us EmptyString ++ itoa (sIdx s).

(* query/scoper.go:48-67; s.scopes[i] panics when a recorded level exceeds the
   stack height. *)
Definition ScopeVar (s : scoper) (v : QVar) : res QVar :=
  if (length (scopes s) =? 0)%nat then Ok v
  else
    let lvl := match slookup (svars s) v with Some n => n | None => 0%nat end in
    fold_left
      (fun acc i =>
         rdo b <- acc ;;
         rdo sc <- sget (scopes s) (Z.of_nat i) ;;
         Ok (b ++ scope_suffix sc))
      (seq 0 lvl) (Ok v).

(* query/scoper.go:69-78 *)
Definition AddVar (s : scoper) (v : QVar) : scoper :=
  if (length (scopes s) =? 0)%nat then s
  else match slookup (svars s) v with
       | Some _ => s
       | None => mkScoper (scopes s) ((v, length (scopes s)) :: svars s)
       end.

(* query/scoper.go:81-86 *)
Fixpoint find_scope (l : list scope) (id : string) : option scope :=
  match l with
  | [] => None
  | g :: r => if String.eqb (sTarget g) id then Some g else find_scope r id
  end.

(* query/scoper.go:80-87 *)
Definition ScopeConst (s : scoper) (c : QConst) : QConst * bool :=
  match find_scope (scopes s) (cID c) with
  | Some g => (mkQConst (cID c) (sValue g), true)
  | None => (c, false)
  end.

(* query/scoper.go:89-91 *)
Definition AddScope (s : scoper) (tgt : string) : scoper :=
  mkScoper (scopes s ++ [mkScope tgt [] 0]) (svars s).

(* query/scoper.go:93-107 *)
Definition PopScope (s : scoper) : option string * scoper :=
  match scopes s with
  | [] => (Some "Invalid scope removal in empty scoper", s)
  | _ =>
      let n := length (scopes s) in
      (None, mkScoper (removelast (scopes s))
               (filter (fun kv => negb (snd kv =? n)%nat) (svars s)))
  end.

(* query/scoper.go:109-117 *)
Definition SetScope (s : scoper) (vIdx : Z) (val : list FeatV) : option string * scoper :=
  match scopes s with
  | [] => (Some "Invalid setting of scope in empty scoper", s)
  | _ =>
      let d := mkScope "" [] 0 in
      (None, mkScoper
               (removelast (scopes s)
                  ++ [mkScope (sTarget (last (scopes s) d)) val vIdx])
               (svars s))
  end.

(* query/scoper.go:119-121: the variable levels are kept (sic). *)
Definition ScoperReset (s : scoper) : scoper := mkScoper [] (svars s).

(* ---- query/varmanager.go ---- *)

(* query/varmanager.go:30-34 *)
Definition varRep : Type := (string * Z * Z).
Definition varRep_eqb (a b : varRep) : bool :=
  let '(v, i, x) := a in let '(w, j, y) := b in
  String.eqb v w && (i =? j) && (x =? y).

(* query/varmanager.go:25-28 *)
Record varman := mkVarman { vm_topv : Z; vm_vars : list (varRep * Z) }.

Fixpoint vlookup (m : list (varRep * Z)) (t : varRep) : option Z :=
  match m with
  | [] => None
  | (k, n) :: r => if varRep_eqb k t then Some n else vlookup r t
  end.

(* query/varmanager.go:40-46 *)
Definition UpdateTopV (vm : varman) (v : Z) : bool * varman :=
  if v <? vm_topv vm then (false, vm) else (true, mkVarman v (vm_vars vm)).

(* query/varmanager.go:48-56 *)
Definition CNFVar (vm : varman) (t : varRep) : Z * varman :=
  match vlookup (vm_vars vm) t with
  | Some val => (val, vm)
  | None =>
      let n := vm_topv vm + 1 in
      (n, mkVarman n ((t, n) :: vm_vars vm))
  end.

(* query/varmanager.go:58-61 *)
Definition CNFVarExists (vm : varman) (t : varRep) : bool :=
  match vlookup (vm_vars vm) t with Some _ => true | None => false end.

(* query/varmanager.go:63-66 *)
Definition VarmanReset (vm : varman) : varman := mkVarman 0 [].

(* ---- query/context.go ---- *)

(* query/model.go:4-11: what the library can see of a model. *)
Record model := mkModel { Dim : nat; Nodes : list node }.

(* query/context.go:13-17 *)
Record ctx := mkCtx { cScoper : scoper; cVM : varman; cModel : model }.

(* query/context.go:24-30 *)
Definition BasicQContext (m : model) : ctx :=
  mkCtx (mkScoper [] []) (mkVarman 0 []) m.

(* query/context.go:33-39 *)
Definition CtxReset (c : ctx) : ctx :=
  mkCtx (ScoperReset (cScoper c)) (VarmanReset (cVM c)) (cModel c).
