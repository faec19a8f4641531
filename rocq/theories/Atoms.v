(* Model of the predicates (query/predicates/..) and extensions
   (query/extensions/..): the Encoding method of each of the 32 components.

   A component reads the scoper, the dimension and the nodes, then asks the
   variable manager for CNF variables and assembles clauses out of them.  The
   model keeps the two apart: [atom_enc] computes, from what the component
   reads, either an error / constant CNF or a list of emissions over symbolic
   literals (sign, (QVar, idx, val)); [run_emits] then replays the emissions in
   order, calling CNFVar for every literal from left to right (the order in
   which Go evaluates the calls) and the Append* functions of cnf.go.

   Simplifications: variable generation functions are pure; a nil function is
   [None].  Reads of constants' features whose bounds were validated just
   before use [vget] (default 0, never reached). *)
From Verif Require Import GoBase Cnf Query Walk.
Local Open Scope Z_scope.

(* ---- symbolic clauses and their replay ---- *)

Definition slit : Type := (bool * varRep).
Definition sclause := list slit.
Definition Lp (v : string) (i x : Z) : slit := (true, (v, i, x)).
Definition Ln (v : string) (i x : Z) : slit := (false, (v, i, x)).

Inductive emit :=
| EAlloc (l : list varRep)        (* CNFVar calls made before their use *)
| EFrom (cls : list sclause)      (* ncnf := cnf.FromClauses(cls) *)
| ESem (cls : list sclause)       (* ncnf = ncnf.AppendSemantics(cls...) *)
| ECons (cls : list sclause).     (* ncnf = ncnf.AppendConsistency(cls...) *)

Fixpoint alloc_vars (vm : varman) (l : list varRep) : varman :=
  match l with
  | [] => vm
  | t :: r => alloc_vars (snd (CNFVar vm t)) r
  end.

Fixpoint alloc_clause (vm : varman) (cl : sclause) : clause * varman :=
  match cl with
  | [] => ([], vm)
  | (s, t) :: r =>
      let (n, vm) := CNFVar vm t in
      let (r', vm) := alloc_clause vm r in
      ((if s then n else - n) :: r', vm)
  end.

Fixpoint alloc_clauses (vm : varman) (cls : list sclause)
  : list clause * varman :=
  match cls with
  | [] => ([], vm)
  | cl :: r =>
      let (cl', vm) := alloc_clause vm cl in
      let (r', vm) := alloc_clauses vm r in
      (cl' :: r', vm)
  end.

Definition run_emit (cv : CNF * varman) (e : emit) : CNF * varman :=
  let (c, vm) := cv in
  match e with
  | EAlloc l => (c, alloc_vars vm l)
  | EFrom cls => let (cls, vm) := alloc_clauses vm cls in (FromClauses cls, vm)
  | ESem cls => let (cls, vm) := alloc_clauses vm cls in (AppendSemantics c cls, vm)
  | ECons cls => let (cls, vm) := alloc_clauses vm cls in (AppendConsistency c cls, vm)
  end.

Definition run_emits (vm : varman) (es : list emit) : CNF * varman :=
  fold_left run_emit es (TrueCNF, vm).

(* What a component returns without error. *)
Inductive aout :=
| ABool (b : bool)                (* cnf.TrueCNF / cnf.FalseCNF *)
| AEmit (es : list emit).

(* ---- small helpers for Go's loops ---- *)

(* a, a+1, .., b-1 *)
Definition zrange (a b : Z) : list Z :=
  map (fun k => a + Z.of_nat k) (seq 0 (Z.to_nat (b - a))).

(* for i, ft := range val *)
Fixpoint mapi_from {A B} (i : Z) (f : Z -> A -> B) (l : list A) : list B :=
  match l with
  | [] => []
  | a :: r => f i a :: mapi_from (i + 1) f r
  end.
Definition mapi {A B} (f : Z -> A -> B) (l : list A) : list B := mapi_from 0 f l.

Definition vget (val : list FeatV) (i : Z) : FeatV := nth (Z.to_nat i) val 0.

Definition nil_gen_err : string := "Invalid nil var generation function".
Definition empty_model_err : string := "Invalid encoding on empty model".
Definition diff_dim_err : string :=
  "Invalid comparison of constants of different dim".

(* ---- predicates/subsumption ---- *)

(* var_var.go:28-40 *)
Definition subs_vv (d : Z) (v1 v2 : string) : list sclause :=
  flat_map (fun i => [[Ln v1 i ONE; Lp v2 i ONE]; [Ln v1 i ZERO; Lp v2 i ZERO]])
    (zrange 0 d).
(* var_const.go:30-51 *)
Definition subs_vc (v : string) (val : list FeatV) : list sclause :=
  concat (mapi (fun i ft =>
    if ft =? ONE then [[Ln v i ZERO]]
    else if ft =? ZERO then [[Ln v i ONE]]
    else [[Ln v i ONE]; [Ln v i ZERO]]) val).
(* const_var.go:30-38 *)
Definition subs_cv (val : list FeatV) (v : string) : list sclause :=
  concat (mapi (fun i ft => if negb (ft =? BOT) then [[Lp v i ft]] else []) val).
(* const_const.go:34-40; the second slice has the same length *)
Definition subs_cc (val1 val2 : list FeatV) : bool :=
  forallb (fun p => (fst p =? BOT) || (fst p =? snd p)) (combine val1 val2).

(* ---- extensions/full ---- *)

(* var.go:23-30; also extensions/leh/utils.go:180-191 *)
Definition full_v (d : Z) (v : string) : list sclause :=
  map (fun i => [Ln v i BOT]) (zrange 0 d).
(* const.go:27-33 *)
Definition full_c (val : list FeatV) : bool :=
  negb (existsb (fun ft => ft =? BOT) val).

(* ---- extensions/cons ---- *)

(* var_var.go:27-41 *)
Definition cons_vv (d : Z) (v1 v2 : string) : list sclause :=
  flat_map (fun i => [[Ln v1 i ONE; Ln v2 i ZERO]; [Ln v1 i ZERO; Ln v2 i ONE]])
    (zrange 0 d).
(* var_const.go:31-44 and const_var.go:31-44 *)
Definition cons_vc (v : string) (val : list FeatV) : list sclause :=
  concat (mapi (fun i ft =>
    if ft =? BOT then []
    else [[Ln v i (if ft =? ZERO then ONE else ZERO)]]) val).
(* const_const.go:35-43 *)
Definition cons_cc (val1 val2 : list FeatV) : bool :=
  forallb (fun p => negb (negb (fst p =? BOT) && negb (snd p =? BOT)
                          && negb (fst p =? snd p))) (combine val1 val2).

(* ---- predicates/lel ---- *)

(* utils.go:21-64: one turn of the outer loop *)
Definition count_row (v cv : string) (i : Z) : list sclause :=
  [[Ln cv i 0; Ln v i BOT];
   [Ln cv i 0; Lp cv (i - 1) 0];
   [Ln cv (i - 1) 0; Lp v i BOT; Lp cv i 0]] ++
  flat_map (fun j =>
    [[Ln cv i j; Lp cv (i - 1) (j - 1); Ln v i BOT];
     [Lp cv i j; Ln cv (i - 1) (j - 1); Ln v i BOT];
     [Ln cv i j; Lp cv (i - 1) j; Lp v i BOT];
     [Lp cv i j; Ln cv (i - 1) j; Lp v i BOT]]) (zrange 1 (i + 2)).
(* utils.go:66-70; also extensions/leh/utils.go:100-104, 169-173 *)
Definition no_excess (d : Z) (cv : string) : list sclause :=
  flat_map (fun i => map (fun j => [Ln cv i j]) (zrange (i + 2) (d + 1)))
    (zrange 0 d).
(* utils.go:11-93 *)
Definition varBotCountClauses (d : Z) (v cv : string) : list sclause :=
  flat_map (count_row v cv) (zrange 1 d)
  ++ no_excess d cv
  ++ [[Ln cv 0 1; Lp v 0 BOT]; [Ln v 0 BOT; Lp cv 0 1];
      [Ln cv 0 0; Ln v 0 BOT]; [Lp v 0 BOT; Lp cv 0 0]].
(* var_var.go:43-52 *)
Definition lel_vv_sem (d : Z) (c1 c2 : string) : list sclause :=
  map (fun i => Ln c1 (d - 1) i :: map (fun j => Lp c2 (d - 1) j) (zrange 0 (i + 1)))
    (zrange 0 d).
(* var_const.go:42-46 *)
Definition lel_vc_sem (d : Z) (cv : string) (c : QConst) : list sclause :=
  map (fun i => [Ln cv (d - 1) i]) (zrange 0 (BotCount c)).
(* const_var.go:42-46 *)
Definition lel_cv_sem (d : Z) (cv : string) (c : QConst) : list sclause :=
  map (fun i => [Ln cv (d - 1) i]) (zrange (BotCount c + 1) (d + 1)).

(* ---- predicates/isnode/var.go ---- *)

(* var.go:42-53: the clauses fcl, filled by a loop over the nodes; writing
   fcl[node.Feat] panics when Feat is out of range *)
Definition isnode_fcl_step (r : string) (acc : res (list sclause)) (p : Z * node)
  : res (list sclause) :=
  rdo fcl <- acc ;;
  let '(i, n) := p in
  if IsLeaf n then Ok fcl
  else rdo cl <- sget fcl (nFeat n) ;; sset fcl (nFeat n) (cl ++ [Lp r 0 i]).
Definition isnode_fcl (d : Z) (nodes : list node) (v r : string)
  : res (list sclause) :=
  fold_left (isnode_fcl_step r) (mapi pair nodes)
    (Ok (map (fun i => [Lp v i BOT]) (zrange 0 d))).
(* the CNFVar calls of var.go:44-53 in their order *)
Definition isnode_fcl_alloc (d : Z) (nodes : list node) (v r : string)
  : list varRep :=
  map (fun i => (v, i, BOT)) (zrange 0 d)
  ++ concat (mapi (fun i n => if IsLeaf n then [] else [(r, 0, i)]) nodes).
(* var.go:61-93 *)
Definition isnode_reach (v r : string) (i : Z) (n : node) : list sclause :=
  if IsLeaf n then []
  else
    [[Ln v (nFeat n) ZERO; Ln r 0 i; Lp r 0 (zChild n)];
     [Ln v (nFeat n) ONE; Ln r 0 i; Lp r 0 (oChild n)];
     [Ln r 0 (oChild n); Lp r 0 i];
     [Ln r 0 (oChild n); Lp v (nFeat n) ONE];
     [Ln r 0 (zChild n); Lp r 0 i];
     [Ln r 0 (zChild n); Lp v (nFeat n) ZERO]].

(* ---- extensions/allcomp/var.go ---- *)

(* var.go:46-95: one turn of the loop *)
Definition allcomp_node (v r : string) (leafValue : bool) (i : Z) (n : node)
  : list emit :=
  if IsLeaf n then
    if eqb (nValue n) leafValue then [] else [ESem [[Ln r 0 i]]]
  else
    [ECons
      [[Ln v (nFeat n) ZERO; Ln r 0 i; Lp r 0 (zChild n)];
       [Ln v (nFeat n) ONE; Ln r 0 i; Lp r 0 (oChild n)];
       [Ln v (nFeat n) BOT; Ln r 0 i; Lp r 0 (zChild n)];
       [Ln v (nFeat n) BOT; Ln r 0 i; Lp r 0 (oChild n)];
       [Ln r 0 (oChild n); Lp r 0 i];
       [Ln r 0 (oChild n); Lp v (nFeat n) ONE; Lp v (nFeat n) BOT];
       [Ln r 0 (zChild n); Lp r 0 i];
       [Ln r 0 (zChild n); Lp v (nFeat n) ZERO; Lp v (nFeat n) BOT]]].

(* ---- extensions/dfs ---- *)

(* const.go:52-68 *)
Definition leafCompare (c l1 l2 : QConst) : res bool :=
  if negb (length (cVal c) =? length (cVal l1))%nat
     || negb (length (cVal c) =? length (cVal l2))%nat
  then Err diff_dim_err
  else
    Ok (existsb (fun p => negb (fst p =? BOT) && negb (fst (snd p) =? BOT)
                          && negb (snd (snd p) =? BOT)
                          && negb (fst (snd p) =? snd (snd p)))
          (combine (cVal c) (combine (cVal l1) (cVal l2)))).

(* const.go:36-49: the two nested loops, over all pairs in order *)
Fixpoint dfs_const_loop (c : QConst) (pairs : list (QConst * QConst)) : res bool :=
  match pairs with
  | [] => Ok true
  | (p, n) :: r =>
      rdo ok <- leafCompare c p n ;;
      if negb ok then Ok false else dfs_const_loop c r
  end.

(* var.go:49-71 *)
Definition notAWitnessClause (dim : nat) (v : string) (l1 l2 : QConst)
  : res sclause :=
  if negb (dim =? length (cVal l1))%nat || negb (dim =? length (cVal l2))%nat
  then Err diff_dim_err
  else
    Ok (flat_map
          (fun i =>
             let a := vget (cVal l1) i in let b := vget (cVal l2) i in
             if negb (a =? BOT) && negb (b =? BOT) && negb (a =? b)
             then [Ln v i BOT] else [])
          (zrange 0 (Z.of_nat dim))).

(* var.go:35-44.  The error, never returned because leafs have dim features,
   would leave behind CNF variables of earlier clauses; the model does not. *)
Fixpoint dfs_var_loop (dim : nat) (v : string) (pairs : list (QConst * QConst))
  : res (list sclause) :=
  match pairs with
  | [] => Ok []
  | (p, n) :: r =>
      rdo cl <- notAWitnessClause dim v p n ;;
      rdo cls <- dfs_var_loop dim v r ;;
      Ok (cl :: cls)
  end.

(* ---- extensions/hepr ---- *)

(* util.go:13-25; None is the nil error; [seen] lists the indices marked *)
Fixpoint validatePref_from (seen : list Z) (pref : list Z) (dim : nat)
  : option string :=
  match pref with
  | [] => None
  | i :: r =>
      if (i <? 0) || (Z.of_nat dim <=? i) then
        Some ("Preference feature index out of range '" ++ itoa i ++ "'")%string
      else if existsb (Z.eqb i) seen then
        Some ("Invalid duplicate preference '" ++ itoa i ++ "'")%string
      else validatePref_from (i :: seen) r dim
  end.
Definition validatePref (pref : list Z) (dim : nat) : option string :=
  validatePref_from [] pref dim.

(* util.go:28-36 *)
Definition prefVar (pref : list Z) : string :=
  fold_left (fun s i => (s ++ itoa i)%string) pref EmptyString.

(* const_const.go:40-49 *)
Fixpoint hepr_cc (val1 val2 : list FeatV) (pref : list Z) : bool :=
  match pref with
  | [] => true
  | i :: r =>
      if negb (vget val1 i =? BOT) && (vget val2 i =? BOT) then true
      else if (vget val1 i =? BOT) && negb (vget val2 i =? BOT) then false
      else hepr_cc val1 val2 r
  end.

(* plen-2, plen-3, .., 0 *)
Definition hepr_idxs (plen : Z) : list Z := rev (zrange 0 (plen - 1)).

(* const_var.go:51-107 *)
Definition hepr_cv (val : list FeatV) (v h : string) (pref : list Z)
  : list emit :=
  let plen := Z.of_nat (length pref) in
  let idx := vget pref (plen - 1) in
  (if negb (vget val idx =? BOT) then [ECons [[Lp h 0 (plen - 1)]]]
   else [ECons [[Ln h 0 (plen - 1); Lp v idx BOT]; [Ln v idx BOT; Lp h 0 (plen - 1)]]])
  ++ map (fun i =>
       let idx := vget pref i in
       if negb (vget val idx =? BOT) then
         ECons [[Ln h 0 i; Lp v idx BOT; Lp h 0 (i + 1)];
                [Ln v idx BOT; Lp h 0 i];
                [Ln h 0 (i + 1); Lp h 0 i]]
       else
         ECons [[Ln v idx BOT; Ln h 0 (i + 1); Lp h 0 i];
                [Ln h 0 i; Lp v idx BOT];
                [Ln h 0 i; Lp h 0 (i + 1)]]) (hepr_idxs plen)
  ++ [ESem [[Lp h 0 0]]].

(* var_const.go:51-108 *)
Definition hepr_vc (v : string) (val : list FeatV) (h : string) (pref : list Z)
  : list emit :=
  let plen := Z.of_nat (length pref) in
  let idx := vget pref (plen - 1) in
  (if negb (vget val idx =? BOT) then
     [ECons [[Ln h 0 (plen - 1); Ln v idx BOT]; [Lp h 0 (plen - 1); Lp v idx BOT]]]
   else [ECons [[Lp h 0 (plen - 1)]]])
  ++ map (fun i =>
       let idx := vget pref i in
       if negb (vget val idx =? BOT) then
         ECons [[Lp v idx BOT; Ln h 0 (i + 1); Lp h 0 i];
                [Ln h 0 i; Ln v idx BOT];
                [Ln h 0 i; Lp h 0 (i + 1)]]
       else
         ECons [[Ln v idx BOT; Lp h 0 (i + 1); Ln h 0 i];
                [Lp h 0 i; Lp v idx BOT];
                [Lp h 0 i; Ln h 0 (i + 1)]]) (hepr_idxs plen)
  ++ [ESem [[Lp h 0 0]]].

(* var_var.go:42-100 *)
Definition hepr_vv (v1 v2 h : string) (pref : list Z) : list emit :=
  let plen := Z.of_nat (length pref) in
  let idx := vget pref (plen - 1) in
  [ECons [[Ln h 0 (plen - 1); Ln v1 idx BOT; Lp v2 idx BOT];
          [Lp v1 idx BOT; Lp h 0 (plen - 1)];
          [Ln v2 idx BOT; Lp h 0 (plen - 1)]]]
  ++ map (fun i =>
       let idx := vget pref i in
       ECons [[Ln v1 idx BOT; Lp v2 idx BOT; Ln h 0 i];
              [Ln v1 idx BOT; Ln h 0 i; Lp h 0 (i + 1)];
              [Lp v2 idx BOT; Ln h 0 i; Lp h 0 (i + 1)];
              [Lp v1 idx BOT; Ln v2 idx BOT; Lp h 0 i];
              [Lp v1 idx BOT; Lp h 0 i; Ln h 0 (i + 1)];
              [Ln v2 idx BOT; Lp h 0 i; Ln h 0 (i + 1)]]) (hepr_idxs plen)
  ++ [ESem [[Lp h 0 0]]].

(* ---- extensions/leh ---- *)

(* utils.go:12-30, the distance; the lengths are equal (validated before) *)
Definition hammingDistCC (val1 val2 : list FeatV) : Z :=
  fold_left (fun hd p => if negb (fst p =? snd p) then hd + 1 else hd)
    (combine val1 val2) 0.

(* utils.go:56-98 (i-th row, comparison literal e i) and utils.go:125-167 *)
Definition hd_row (hd : string) (e : Z -> slit) (ne : Z -> slit) (i : Z)
  : list sclause :=
  [[Ln hd i 0; Lp hd (i - 1) 0];
   [Ln hd i 0; e i];
   [Ln hd (i - 1) 0; ne i; Lp hd i 0]] ++
  flat_map (fun j =>
    [[Ln hd i j; Lp hd (i - 1) (j - 1); e i];
     [Ln hd i j; Lp hd (i - 1) j; ne i];
     [Lp hd i j; Ln hd (i - 1) (j - 1); e i];
     [Lp hd i j; Ln hd (i - 1) j; ne i]]) (zrange 1 (i + 2)).

(* utils.go:48-53 and utils.go:117-123 *)
Definition hd_first (hd : string) (e : Z -> slit) (ne : Z -> slit)
  : list sclause :=
  [[Ln hd 0 0; e 0]; [ne 0; Lp hd 0 0]; [Ln hd 0 1; ne 0]; [e 0; Lp hd 0 1]].

(* utils.go:35-107 (the dimension error cannot occur: validated by callers) *)
Definition hammingDistVC (d : Z) (v : string) (val : list FeatV) (hd : string)
  : list sclause :=
  let e := fun i => Lp v i (vget val i) in
  let ne := fun i => Ln v i (vget val i) in
  hd_first hd e ne ++ flat_map (hd_row hd e ne) (zrange 1 d) ++ no_excess d hd.

(* utils.go:113-176 *)
Definition hammingDistVV (d : Z) (hd ef : string) : list sclause :=
  let e := fun i => Lp ef i 0 in
  let ne := fun i => Ln ef i 0 in
  hd_first hd e ne ++ flat_map (hd_row hd e ne) (zrange 1 d) ++ no_excess d hd.

(* utils.go:197-230 *)
Definition fullVarEqualClauses (d : Z) (v1 v2 ef : string) : list sclause :=
  flat_map (fun i =>
    [[Ln v1 i ONE; Ln v2 i ONE; Lp ef i 0];
     [Ln v1 i ONE; Ln v2 i ZERO; Ln ef i 0];
     [Ln v1 i ZERO; Ln v2 i ONE; Ln ef i 0];
     [Ln v1 i ZERO; Ln v2 i ZERO; Lp ef i 0]]) (zrange 0 d).

(* var_var_var.go:59-68 and the same loop of var_var_const.go, var_const_var.go,
   const_var_var.go, var_const_const.go *)
Definition leh_sem (d : Z) (hd1 hd2 : string) : list sclause :=
  flat_map (fun i => map (fun j => [Ln hd1 (d - 1) i; Ln hd2 (d - 1) j]) (zrange 0 i))
    (zrange 1 (d + 1)).

Definition clause_vars (cls : list sclause) : list varRep := map snd (concat cls).

(* ---- the components ---- *)

Definition gen1 := option (string -> string).
Definition gen2 := option (string -> string -> string).
Definition gen3 := option (string -> string -> string -> string).

Inductive atom :=
(* predicates/subsumption *)
| SubsVV (v1 v2 : QVar) | SubsVC (v : QVar) (c : QConst)
| SubsCV (c : QConst) (v : QVar) | SubsCC (c1 c2 : QConst)
(* predicates/lel *)
| LelVV (v1 v2 : QVar) (g : gen1) | LelVC (v : QVar) (c : QConst) (g : gen1)
| LelCV (c : QConst) (v : QVar) (g : gen1) | LelCC (c1 c2 : QConst)
(* predicates/isnode *)
| NodeV (v : QVar) (g : gen1) | NodeC (c : QConst)
(* extensions/full *)
| FullV (v : QVar) | FullC (c : QConst)
(* extensions/cons *)
| ConsVV (v1 v2 : QVar) | ConsVC (v : QVar) (c : QConst)
| ConsCV (c : QConst) (v : QVar) | ConsCC (c1 c2 : QConst)
(* extensions/allcomp *)
| AllV (v : QVar) (b : bool) (g : gen1) | AllC (c : QConst) (b : bool)
(* extensions/dfs *)
| DfsV (v : QVar) | DfsC (c : QConst)
(* extensions/hepr *)
| HeprVV (v1 v2 : QVar) (pref : list Z) (g : gen3)
| HeprVC (v : QVar) (c : QConst) (pref : list Z) (g : gen3)
| HeprCV (c : QConst) (v : QVar) (pref : list Z) (g : gen3)
| HeprCC (c1 c2 : QConst) (pref : list Z)
(* extensions/leh *)
| LehVVV (v1 v2 v3 : QVar) (hd ef : gen2)
| LehVVC (v1 v2 : QVar) (c : QConst) (hd ef : gen2)
| LehVCV (v1 : QVar) (c : QConst) (v2 : QVar) (hd ef : gen2)
| LehCVV (c : QConst) (v1 v2 : QVar) (hd : gen2)
| LehVCC (v : QVar) (c1 c2 : QConst) (hd : gen2)
| LehCVC (c1 : QConst) (v : QVar) (c2 : QConst) (hd : gen2)
| LehCCV (c1 c2 : QConst) (v : QVar) (hd : gen2)
| LehCCC (c1 c2 c3 : QConst).

Definition need {A B} (o : option A) (e : string) (k : A -> res B) : res B :=
  match o with Some a => k a | None => Err e end.
Definition guard {B} (o : option string) (k : res B) : res B :=
  match o with Some e => Err e | None => k end.
(* extensions/leh/utils.go:47-53: hammingDistVC reads c.Val[0], which panics
   when the constant has no features (CNF variables made before the panic are
   not modelled). *)
Definition first_feat {B} (dim : nat) (k : res B) : res B :=
  match dim with O => Panic | S _ => k end.
Definition rbool (r : res bool) : res aout := rdo b <- r ;; Ok (ABool b).

(* The Encoding methods with a non-nil context.  The order of checks follows
   the code; where it calls a generator before a check, the generator being
   pure makes no difference. *)
Definition atom_enc (ctx : ctx) (a : atom) : res aout :=
  let S := cScoper ctx in
  let dim := Dim (cModel ctx) in
  let d := Z.of_nat dim in
  let nodes := Nodes (cModel ctx) in
  let sc := fun c => fst (ScopeConst S c) in
  let dims := ValidateConstsDim dim in
  match a with
  (* predicates/subsumption/var_var.go:18-43 *)
  | SubsVV v1 v2 =>
      rdo v1 <- ScopeVar S v1 ;; rdo v2 <- ScopeVar S v2 ;;
      Ok (AEmit [EFrom (subs_vv d v1 v2)])
  (* predicates/subsumption/var_const.go:18-54 *)
  | SubsVC v c =>
      rdo v <- ScopeVar S v ;;
      guard (dims [sc c]) (Ok (AEmit [EFrom (subs_vc v (cVal (sc c)))]))
  (* predicates/subsumption/const_var.go:18-41 *)
  | SubsCV c v =>
      rdo v <- ScopeVar S v ;;
      guard (dims [sc c]) (Ok (AEmit [EFrom (subs_cv (cVal (sc c)) v)]))
  (* predicates/subsumption/const_const.go:18-41 *)
  | SubsCC c1 c2 =>
      guard (dims [sc c1; sc c2])
        (Ok (ABool (subs_cc (cVal (sc c1)) (cVal (sc c2)))))
  (* predicates/lel/var_var.go:23-55 *)
  | LelVV v1 v2 g =>
      need g nil_gen_err (fun g =>
      rdo v1 <- ScopeVar S v1 ;; rdo v2 <- ScopeVar S v2 ;;
      Ok (AEmit ([ECons (varBotCountClauses d v1 (g v1));
                  ECons (varBotCountClauses d v2 (g v2))]
                 ++ map (fun cl => ESem [cl]) (lel_vv_sem d (g v1) (g v2)))))
  (* predicates/lel/var_const.go:23-49 *)
  | LelVC v c g =>
      need g nil_gen_err (fun g =>
      rdo v <- ScopeVar S v ;;
      guard (dims [sc c])
      (Ok (AEmit (ECons (varBotCountClauses d v (g v))
                  :: map (fun cl => ESem [cl]) (lel_vc_sem d (g v) (sc c))))))
  (* predicates/lel/const_var.go:23-49 *)
  | LelCV c v g =>
      need g nil_gen_err (fun g =>
      rdo v <- ScopeVar S v ;;
      guard (dims [sc c])
      (Ok (AEmit (ECons (varBotCountClauses d v (g v))
                  :: map (fun cl => ESem [cl]) (lel_cv_sem d (g v) (sc c))))))
  (* predicates/lel/const_const.go:20-37 *)
  | LelCC c1 c2 =>
      guard (dims [sc c1; sc c2])
        (Ok (ABool (negb (BotCount (sc c1) <? BotCount (sc c2)))))
  (* predicates/isnode/var.go:20-96 *)
  | NodeV v g =>
      need g nil_gen_err (fun g =>
      match nodes with
      | [] => Err empty_model_err
      | _ =>
          rdo v <- ScopeVar S v ;;
          let r := g v in
          rdo fcl <- isnode_fcl d nodes v r ;;
          Ok (AEmit ([EAlloc (isnode_fcl_alloc d nodes v r); ESem fcl;
                      ECons [[Lp r 0 0]]]
                     ++ concat (mapi (fun i n =>
                          if IsLeaf n then []
                          else [ECons (isnode_reach v r i n)]) nodes)))
      end)
  (* predicates/isnode/const.go:18-88 *)
  | NodeC c => guard (dims [sc c]) (rbool (isnode_const dim nodes (sc c)))
  (* extensions/full/var.go:17-33 *)
  | FullV v => rdo v <- ScopeVar S v ;; Ok (AEmit [EFrom (full_v d v)])
  (* extensions/full/const.go:17-34 *)
  | FullC c => guard (dims [sc c]) (Ok (ABool (full_c (cVal (sc c)))))
  (* extensions/cons/var_var.go:19-44 *)
  | ConsVV v1 v2 =>
      rdo v1 <- ScopeVar S v1 ;; rdo v2 <- ScopeVar S v2 ;;
      Ok (AEmit [EFrom (cons_vv d v1 v2)])
  (* extensions/cons/var_const.go:19-51; FromClauses of no clauses is TrueCNF *)
  | ConsVC v c =>
      rdo v <- ScopeVar S v ;;
      guard (dims [sc c]) (Ok (AEmit [EFrom (cons_vc v (cVal (sc c)))]))
  (* extensions/cons/const_var.go:19-51 *)
  | ConsCV c v =>
      rdo v <- ScopeVar S v ;;
      guard (dims [sc c]) (Ok (AEmit [EFrom (cons_vc v (cVal (sc c)))]))
  (* extensions/cons/const_const.go:19-44 *)
  | ConsCC c1 c2 =>
      guard (dims [sc c1; sc c2])
        (Ok (ABool (cons_cc (cVal (sc c1)) (cVal (sc c2)))))
  (* extensions/allcomp/var.go:24-98 *)
  | AllV v b g =>
      need g nil_gen_err (fun g =>
      match nodes with
      | [] => Err empty_model_err
      | _ =>
          rdo v <- ScopeVar S v ;;
          let r := g v in
          Ok (AEmit (ECons [[Lp r 0 0]]
                     :: concat (mapi (allcomp_node v r b) nodes)))
      end)
  (* extensions/allcomp/const.go:22-84 *)
  | AllC c b => guard (dims [sc c]) (rbool (allcomp_const dim nodes (sc c) b))
  (* extensions/dfs/var.go:17-47; leafsAsConsts indexes walk[0], so an empty
     model panics before the check of lines 29-31 *)
  | DfsV v =>
      rdo v <- ScopeVar S v ;;
      rdo pn <- leafsAsConsts dim nodes ;;
      let (pleaf, nleaf) := pn in
      if (length pleaf =? 0)%nat && (length nleaf =? 0)%nat
      then Err empty_model_err
      else
        rdo cls <- dfs_var_loop dim v (list_prod pleaf nleaf) ;;
        Ok (AEmit [EFrom cls])
  (* extensions/dfs/const.go:17-50 *)
  | DfsC c =>
      guard (dims [sc c])
      (rdo pn <- leafsAsConsts dim nodes ;;
       let (pleaf, nleaf) := pn in
       if (length pleaf =? 0)%nat && (length nleaf =? 0)%nat
       then Err empty_model_err
       else rbool (dfs_const_loop (sc c) (list_prod pleaf nleaf)))
  (* extensions/hepr/var_var.go:25-101; Preference[-1] panics *)
  | HeprVV v1 v2 pref g =>
      need g nil_gen_err (fun g =>
      guard (validatePref pref dim)
      (rdo v1 <- ScopeVar S v1 ;; rdo v2 <- ScopeVar S v2 ;;
       let h := g (prefVar pref) v1 v2 in
       match pref with
       | [] => Panic
       | _ => Ok (AEmit (hepr_vv v1 v2 h pref))
       end))
  (* extensions/hepr/var_const.go:25-109 *)
  | HeprVC v c pref g =>
      need g nil_gen_err (fun g =>
      guard (validatePref pref dim)
      (rdo v <- ScopeVar S v ;;
       let h := g (prefVar pref) v (AsString (sc c)) in
       guard (dims [sc c])
       match pref with
       | [] => Panic
       | _ => Ok (AEmit (hepr_vc v (cVal (sc c)) h pref))
       end))
  (* extensions/hepr/const_var.go:25-110 *)
  | HeprCV c v pref g =>
      need g nil_gen_err (fun g =>
      guard (validatePref pref dim)
      (rdo v <- ScopeVar S v ;;
       let h := g (prefVar pref) (AsString (sc c)) v in
       guard (dims [sc c])
       match pref with
       | [] => Panic
       | _ => Ok (AEmit (hepr_cv (cVal (sc c)) v h pref))
       end))
  (* extensions/hepr/const_const.go:21-50 *)
  | HeprCC c1 c2 pref =>
      guard (validatePref pref dim)
      (guard (dims [sc c1; sc c2])
       (Ok (ABool (hepr_cc (cVal (sc c1)) (cVal (sc c2)) pref))))
  (* extensions/leh/var_var_var.go:30-71 *)
  | LehVVV v1 v2 v3 hd ef =>
      need hd nil_gen_err (fun hd => need ef nil_gen_err (fun ef =>
      rdo v1 <- ScopeVar S v1 ;; rdo v2 <- ScopeVar S v2 ;;
      rdo v3 <- ScopeVar S v3 ;;
      Ok (AEmit
        ([ESem (full_v d v1); ESem (full_v d v2); ESem (full_v d v3);
          ECons (fullVarEqualClauses d v1 v2 (ef v1 v2));
          ECons (fullVarEqualClauses d v1 v3 (ef v1 v3));
          ECons (hammingDistVV d (hd v1 v2) (ef v1 v2));
          ECons (hammingDistVV d (hd v1 v3) (ef v1 v3))]
         ++ map (fun cl => ESem [cl]) (leh_sem d (hd v1 v2) (hd v1 v3))))))
  (* extensions/leh/var_var_const.go:28-77 *)
  | LehVVC v1 v2 c hd ef =>
      need hd nil_gen_err (fun hd => need ef nil_gen_err (fun ef =>
      rdo v1 <- ScopeVar S v1 ;; rdo v2 <- ScopeVar S v2 ;;
      let v1chd := hd v1 (AsString (sc c)) in
      guard (dims [sc c])
      (if negb (IsFull (sc c)) then Ok (ABool false)
       else first_feat dim
         (let cls := hammingDistVC d v1 (cVal (sc c)) v1chd in
         Ok (AEmit
          ([ESem (full_v d v1); ESem (full_v d v2); EAlloc (clause_vars cls);
            ECons (fullVarEqualClauses d v1 v2 (ef v1 v2));
            ECons (hammingDistVV d (hd v1 v2) (ef v1 v2));
            ECons cls]
           ++ map (fun cl => ESem [cl]) (leh_sem d (hd v1 v2) v1chd)))))))
  (* extensions/leh/var_const_var.go:31-81 *)
  | LehVCV v1 c v2 hd ef =>
      need hd nil_gen_err (fun hd => need ef nil_gen_err (fun ef =>
      rdo v1 <- ScopeVar S v1 ;; rdo v2 <- ScopeVar S v2 ;;
      let v1chd := hd v1 (AsString (sc c)) in
      guard (dims [sc c])
      (if negb (IsFull (sc c)) then Ok (ABool false)
       else first_feat dim
         (let cls := hammingDistVC d v1 (cVal (sc c)) v1chd in
         Ok (AEmit
          ([ESem (full_v d v1); ESem (full_v d v2); EAlloc (clause_vars cls);
            ECons (fullVarEqualClauses d v1 v2 (ef v1 v2));
            ECons (hammingDistVV d (hd v1 v2) (ef v1 v2));
            ECons cls]
           ++ map (fun cl => ESem [cl]) (leh_sem d v1chd (hd v1 v2))))))))
  (* extensions/leh/const_var_var.go:26-78 *)
  | LehCVV c v1 v2 hd =>
      need hd nil_gen_err (fun hd =>
      rdo v1 <- ScopeVar S v1 ;; rdo v2 <- ScopeVar S v2 ;;
      let v1chd := hd v1 (AsString (sc c)) in
      let v2chd := hd v2 (AsString (sc c)) in
      guard (dims [sc c])
      (if negb (IsFull (sc c)) then Ok (ABool false)
       else first_feat dim
         (Ok (AEmit
          ([ESem (full_v d v1); ESem (full_v d v2);
            ECons (hammingDistVC d v1 (cVal (sc c)) v1chd);
            ECons (hammingDistVC d v2 (cVal (sc c)) v2chd)]
           ++ map (fun cl => ESem [cl]) (leh_sem d v1chd v2chd))))))
  (* extensions/leh/var_const_const.go:27-76 *)
  | LehVCC v c1 c2 hd =>
      need hd nil_gen_err (fun hd =>
      rdo v <- ScopeVar S v ;;
      let vc1hd := hd v (AsString (sc c1)) in
      let vc2hd := hd v (AsString (sc c2)) in
      guard (dims [sc c1; sc c2])
      (if negb (IsFull (sc c1)) || negb (IsFull (sc c2)) then Ok (ABool false)
       else first_feat dim
         (Ok (AEmit
          ([EFrom (full_v d v);
            ECons (hammingDistVC d v (cVal (sc c1)) vc1hd);
            ECons (hammingDistVC d v (cVal (sc c2)) vc2hd)]
           ++ map (fun cl => ESem [cl]) (leh_sem d vc1hd vc2hd))))))
  (* extensions/leh/const_var_const.go:27-74; the distance variable is named
     after the third operand but measures the distance to the first (sic) *)
  | LehCVC c1 v c2 hd =>
      need hd nil_gen_err (fun hd =>
      rdo v <- ScopeVar S v ;;
      let vc1hd := hd v (AsString (sc c2)) in
      guard (dims [sc c1; sc c2])
      (if negb (IsFull (sc c1)) || negb (IsFull (sc c2)) then Ok (ABool false)
       else
         let cchd := hammingDistCC (cVal (sc c1)) (cVal (sc c2)) in
         if cchd =? d then Ok (ABool true)
         else
           Ok (AEmit
            ([EFrom (full_v d v);
              ECons (hammingDistVC d v (cVal (sc c1)) vc1hd)]
             ++ map (fun i => ESem [[Ln vc1hd (d - 1) i]])
                  (zrange (cchd + 1) (d + 1))))))
  (* extensions/leh/const_const_var.go:27-74 *)
  | LehCCV c1 c2 v hd =>
      need hd nil_gen_err (fun hd =>
      rdo v <- ScopeVar S v ;;
      let vc1hd := hd v (AsString (sc c1)) in
      guard (dims [sc c1; sc c2])
      (if negb (IsFull (sc c1)) || negb (IsFull (sc c2)) then Ok (ABool false)
       else
         let cchd := hammingDistCC (cVal (sc c1)) (cVal (sc c2)) in
         if cchd =? 0 then Ok (ABool true)
         else
           Ok (AEmit
            ([EFrom (full_v d v);
              ECons (hammingDistVC d v (cVal (sc c1)) vc1hd)]
             ++ map (fun i => ESem [[Ln vc1hd (d - 1) i]]) (zrange 0 cchd)))))
  (* extensions/leh/const_const_const.go:21-57 *)
  | LehCCC c1 c2 c3 =>
      guard (dims [sc c1; sc c2; sc c3])
      (if negb (IsFull (sc c1)) || negb (IsFull (sc c2)) || negb (IsFull (sc c3))
       then Ok (ABool false)
       else
         Ok (ABool
              (negb (hammingDistCC (cVal (sc c1)) (cVal (sc c3))
                     <? hammingDistCC (cVal (sc c1)) (cVal (sc c2))))))
  end.
