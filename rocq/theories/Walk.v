(* Model of the loops that walk over a model's nodes:
   the iterator of query/logop/forallguarded.go, leafsAsConsts of
   query/extensions/dfs/utils.go, and the constant versions of IsNode and
   AllComp.  Unbounded Go loops take fuel; running out of it is [Hang]. *)
From Verif Require Import GoBase Query.
Local Open Scope string_scope.
Local Open Scope Z_scope.

Definition feat_range_err (f : Z) (dim : nat) : string :=
  "Node's feature " ++ itoa f ++ " is out of range [0, "
  ++ itoa (Z.of_nat dim - 1) ++ "]".

(* query/logop/forallguarded.go:67-89 and query/extensions/dfs/utils.go:97-119
   (two textually identical functions); None is the nil error. *)
Definition validateNode (n : node) (dim : nat) (nlen : nat) : option string :=
  if IsLeaf n then None
  else if (nFeat n <? 0) || (Z.of_nat dim <=? nFeat n) then
    Some (feat_range_err (nFeat n) dim)
  else if (zChild n <? 0) || (Z.of_nat nlen <=? zChild n) then
    Some ("Node's ZChild out of bounds " ++ itoa (zChild n))
  else if (oChild n <? 0) || (Z.of_nat nlen <=? oChild n) then
    Some ("Node's OChild out of bounds " ++ itoa (oChild n))
  else None.

(* query/logop/forallguarded.go:51-55, query/extensions/dfs/utils.go:15-19 *)
Fixpoint validateNodes (l : list node) (dim nlen : nat) : option string :=
  match l with
  | [] => None
  | n :: r => match validateNode n dim nlen with
              | Some e => Some e
              | None => validateNodes r dim nlen
              end
  end.

(* query/logop/forallguarded.go:24-27 *)
Record walkInfo := mkWalk { wprev : Z; wvisited : bool }.

(* query/logop/forallguarded.go:31-36 *)
Record iter := mkIter
  { it_t : list FeatV; it_nodes : list node; it_walk : list walkInfo; it_cp : Z }.

(* query/logop/forallguarded.go:41-63 *)
Definition newNodeAsValuesIter (dim : nat) (nodes : list node) : res iter :=
  match nodes with
  | [] => Err "Invalid iteration over empty model"
  | _ =>
      match validateNodes nodes dim (length nodes) with
      | Some e => Err e
      | None =>
          Ok (mkIter (repeat 0 dim) nodes
                (repeat (mkWalk 0 false) (length nodes)) 0)
      end
  end.

(* query/logop/forallguarded.go:126-133 *)
Definition it_backup (i : iter) : res (iter + bool * iter) :=
  if it_cp i =? 0 then Ok (inr (false, i))
  else
    rdo w <- sget (it_walk i) (it_cp i) ;;
    let cp := wprev w in
    rdo n <- sget (it_nodes i) cp ;;
    rdo t <- sset (it_t i) (nFeat n) BOT ;;
    Ok (inl (mkIter t (it_nodes i) (it_walk i) cp)).

(* query/logop/forallguarded.go:105-111 and 116-122 *)
Definition it_descend (i : iter) (n : node) (child : Z) (v : FeatV)
  : res (iter + bool * iter) :=
  rdo t <- sset (it_t i) (nFeat n) v ;;
  let pp := it_cp i in
  rdo w <- sget (it_walk i) child ;;
  rdo walk <- sset (it_walk i) child (mkWalk pp (wvisited w)) ;;
  Ok (inl (mkIter t (it_nodes i) walk child)).

(* query/logop/forallguarded.go:97-138, one turn of the loop of Next:
   [inl]: continue; [inr]: return. *)
Definition it_step (i : iter) : res (iter + bool * iter) :=
  rdo w <- sget (it_walk i) (it_cp i) ;;
  if wvisited w then
    rdo n <- sget (it_nodes i) (it_cp i) ;;
    if IsLeaf n then it_backup i
    else
      rdo zw <- sget (it_walk i) (zChild n) ;;
      if negb (wvisited zw) then it_descend i n (zChild n) ZERO
      else
        rdo ow <- sget (it_walk i) (oChild n) ;;
        if negb (wvisited ow) then it_descend i n (oChild n) ONE
        else it_backup i
  else
    rdo walk <- sset (it_walk i) (it_cp i) (mkWalk (wprev w) true) ;;
    Ok (inr (true, mkIter (it_t i) (it_nodes i) walk (it_cp i))).

(* query/logop/forallguarded.go:93-140 *)
Fixpoint it_next (fuel : nat) (i : iter) : res (bool * iter) :=
  match fuel with
  | O => Hang
  | S f =>
      rdo r <- it_step i ;;
      match r with
      | inl i' => it_next f i'
      | inr out => Ok out
      end
  end.

(* Over the whole iteration every node is entered, marked and left at most
   once, so one call of Next takes fewer turns than that. *)
Definition next_fuel (nodes : list node) : nat := 3 * length nodes + 3.
Definition Next (i : iter) : res (bool * iter) := it_next (next_fuel (it_nodes i)) i.

(* ---- query/extensions/dfs/utils.go ---- *)

(* State of leafsAsConsts, utils.go:21-34. *)
Record lwalk := mkLwalk
  { lw_cv : list FeatV; lw_walk : list walkInfo; lw_cp : Z;
    lw_pos : list QConst; lw_neg : list QConst }.

(* utils.go:66-73; [inr] is the break. *)
Definition lw_backup (nodes : list node) (s : lwalk) : res (lwalk + lwalk) :=
  if lw_cp s =? 0 then Ok (inr s)
  else
    rdo w <- sget (lw_walk s) (lw_cp s) ;;
    let cp := wprev w in
    rdo n <- sget nodes cp ;;
    rdo cv <- sset (lw_cv s) (nFeat n) BOT ;;
    Ok (inl (mkLwalk cv (lw_walk s) cp (lw_pos s) (lw_neg s))).

(* utils.go:45-51 and 56-62 *)
Definition lw_descend (s : lwalk) (n : node) (child : Z) (v : FeatV)
  : res (lwalk + lwalk) :=
  rdo cv <- sset (lw_cv s) (nFeat n) v ;;
  let pp := lw_cp s in
  rdo w <- sget (lw_walk s) child ;;
  rdo walk <- sset (lw_walk s) child (mkWalk pp (wvisited w)) ;;
  Ok (inl (mkLwalk cv walk child (lw_pos s) (lw_neg s))).

(* utils.go:36-90, one turn of the loop. *)
Definition lw_step (nodes : list node) (s : lwalk) : res (lwalk + lwalk) :=
  rdo w <- sget (lw_walk s) (lw_cp s) ;;
  if wvisited w then
    rdo n <- sget nodes (lw_cp s) ;;
    if IsLeaf n then lw_backup nodes s
    else
      rdo zw <- sget (lw_walk s) (zChild n) ;;
      if negb (wvisited zw) then lw_descend s n (zChild n) ZERO
      else
        rdo ow <- sget (lw_walk s) (oChild n) ;;
        if negb (wvisited ow) then lw_descend s n (oChild n) ONE
        else lw_backup nodes s
  else
    rdo walk <- sset (lw_walk s) (lw_cp s) (mkWalk (wprev w) true) ;;
    rdo n <- sget nodes (lw_cp s) ;;
    if negb (IsLeaf n) then
      Ok (inl (mkLwalk (lw_cv s) walk (lw_cp s) (lw_pos s) (lw_neg s)))
    else if nValue n then
      Ok (inl (mkLwalk (lw_cv s) walk (lw_cp s)
                 (lw_pos s ++ [mkQConst "" (lw_cv s)])%list (lw_neg s)))
    else
      Ok (inl (mkLwalk (lw_cv s) walk (lw_cp s) (lw_pos s)
                 (lw_neg s ++ [mkQConst "" (lw_cv s)])%list)).

Fixpoint lw_loop (fuel : nat) (nodes : list node) (s : lwalk) : res lwalk :=
  match fuel with
  | O => Hang
  | S f =>
      rdo r <- lw_step nodes s ;;
      match r with
      | inl s' => lw_loop f nodes s'
      | inr s' => Ok s'
      end
  end.

(* Every node is entered, marked and left at most once. *)
Definition leafs_fuel (nodes : list node) : nat := 3 * length nodes + 3.

(* query/extensions/dfs/utils.go:11-93: (positive leafs, negative leafs). *)
Definition leafsAsConsts (dim : nat) (nodes : list node)
  : res (list QConst * list QConst) :=
  match validateNodes nodes dim (length nodes) with
  | Some e => Err e
  | None =>
      rdo s <- lw_loop (leafs_fuel nodes) nodes
                 (mkLwalk (repeat 0 dim)
                    (repeat (mkWalk 0 false) (length nodes)) 0 [] []) ;;
      Ok (lw_pos s, lw_neg s)
  end.

(* ---- query/predicates/isnode/const.go ---- *)

(* const.go:93-105; [dim] equals the number of features (validated before). *)
Definition newVisitRecord (c : QConst) : list Z :=
  map (fun ft => if ft =? BOT then 1 else 0) (cVal c).

(* const.go:108-116 *)
Definition allFeatsVisited (vr : list Z) : bool :=
  fold_left Z.add vr 0 =? Z.of_nat (length vr).

(* const.go:39-80; [inl]: continue with that node and record; [inr]: break. *)
Definition isnode_step (dim : nat) (nodes : list node) (val : list FeatV)
    (nd : node) (visited : list Z) : res ((node * list Z) + list Z) :=
  if IsLeaf nd then Ok (inr visited)
  else if (nFeat nd <? 0) || (Z.of_nat dim <=? nFeat nd) then
    Err (feat_range_err (nFeat nd) dim)
  else
    rdo x <- sget val (nFeat nd) ;;
    if x =? BOT then Ok (inr visited)
    else
      rdo visited <- sset visited (nFeat nd) 1 ;;
      if x =? ZERO then
        if (zChild nd <? 0) || (Z.of_nat (length nodes) <=? zChild nd) then
          Err ("Node's ZChild out of bounds " ++ itoa (zChild nd))
        else rdo nd' <- sget nodes (zChild nd) ;; Ok (inl (nd', visited))
      else
        if (oChild nd <? 0) || (Z.of_nat (length nodes) <=? oChild nd) then
          Err ("Node's OChild out of bounds " ++ itoa (oChild nd))
        else rdo nd' <- sget nodes (oChild nd) ;; Ok (inl (nd', visited)).

Fixpoint isnode_loop (fuel : nat) (dim : nat) (nodes : list node)
    (val : list FeatV) (nd : node) (visited : list Z) : res (list Z) :=
  match fuel with
  | O => Hang
  | S f =>
      rdo r <- isnode_step dim nodes val nd visited ;;
      match r with
      | inl (nd', visited') => isnode_loop f dim nodes val nd' visited'
      | inr visited' => Ok visited'
      end
  end.

(* A walk that visits more nodes than there are repeats one and, the walk being
   determined by the node, never ends. *)
Definition isnode_fuel (nodes : list node) : nat := length nodes + 1.

(* const.go:28-88 after the dimension check: the truth value of the returned
   TrueCNF/FalseCNF. *)
Definition isnode_const (dim : nat) (nodes : list node) (c : QConst) : res bool :=
  match nodes with
  | [] => Err "Invalid encoding on empty model"
  | root :: _ =>
      rdo vr <- isnode_loop (isnode_fuel nodes) dim nodes (cVal c) root
                  (newVisitRecord c) ;;
      Ok (allFeatsVisited vr)
  end.

(* ---- query/extensions/allcomp/const.go ---- *)

(* const.go:62-65 (and the three similar blocks): push a child unless its index
   was pushed before. The stack's top is the head of the list. *)
Definition ac_push (nodes : list node) (st : list node * list Z) (child : Z)
  : res (list node * list Z) :=
  let '(stack, visited) := st in
  if existsb (Z.eqb child) visited then Ok (stack, visited)
  else rdo n <- sget nodes child ;; Ok (n :: stack, child :: visited).

(* const.go:42-81; [fuel] bounds the number of turns. *)
Fixpoint ac_loop (fuel : nat) (dim : nat) (nodes : list node)
    (val : list FeatV) (leafValue : bool) (st : list node * list Z) : res bool :=
  match fuel with
  | O => Hang
  | S f =>
      match st with
      | ([], _) => Ok true
      | (n :: stack, visited) =>
          if IsLeaf n then
            if eqb (nValue n) leafValue
            then ac_loop f dim nodes val leafValue (stack, visited)
            else Ok false
          else if (nFeat n <? 0) || (Z.of_nat dim <=? nFeat n) then
            Err (feat_range_err (nFeat n) dim)
          else
            rdo x <- sget val (nFeat n) ;;
            rdo st' <-
              (if x =? BOT then
                 rdo st1 <- ac_push nodes (stack, visited) (zChild n) ;;
                 ac_push nodes st1 (oChild n)
               else if x =? ZERO then ac_push nodes (stack, visited) (zChild n)
               else if x =? ONE then ac_push nodes (stack, visited) (oChild n)
               else Ok (stack, visited)) ;;
            ac_loop f dim nodes val leafValue st'
      end
  end.

(* The root and each index are pushed at most once. *)
Definition allcomp_fuel (nodes : list node) : nat := length nodes + 2.

(* const.go:32-83 after the dimension check. *)
Definition allcomp_const (dim : nat) (nodes : list node) (c : QConst)
    (leafValue : bool) : res bool :=
  match nodes with
  | [] => Err "Invalid encoding on empty model"
  | root :: _ =>
      ac_loop (allcomp_fuel nodes) dim nodes (cVal c) leafValue ([root], [])
  end.
