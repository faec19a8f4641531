(* The text of query/extensions/full, cons and allcomp against the model. *)
From Verif Require Import GoBase GoLemmas Cnf Query Walk Atoms Logop GoLang GoSource SrcBase SrcLemmas SrcCnf SrcQuery SrcCtx SrcPred SrcNode Size QueryLemmas TreeLemmas Total.
Local Open Scope string_scope.
Local Open Scope Z_scope.
Local Open Scope list_scope.

(* ---- for x := lo; x < hi; x++ whose turns may return ---- *)

Fixpoint zfind {B} (f : Z -> option B) (l : list Z) : option B :=
  match l with
  | [] => None
  | i :: r => match f i with Some b => Some b | None => zfind f r end
  end.
Lemma ex_for_find n x (f : Z -> option (list val)) lo hi init c post body st fl0 :
  run_block (EX n) None init (push [] st) = (Ok fl0, push [(x, VInt lo)] st) ->
  (forall i, EV n c (push [(x, VInt i)] st) = (Ok (VBool (i <? hi)), push [(x, VInt i)] st)) ->
  (forall i, lo <= i < hi ->
     plug n [KPop] (run_block (EX n) None body (push [] (push [(x, VInt i)] st)))
     = (Ok (match f i with Some r => FRet (Some r) | None => FNext end), push [(x, VInt i)] st)) ->
  (forall i, run_block (EX n) None post (push [(x, VInt i)] st) = (Ok FNext, push [(x, VInt (i + 1))] st)) ->
  (Z.to_nat (hi - lo) < n)%nat ->
  EX n (SFor init c post body) st
  = (Ok (match zfind f (zrange lo hi) with Some r => FRet (Some r) | None => FNext end), st).
Proof.
  intros H1 H2 H3 H4 H5.
  rewrite (ex_for_run n (fun i (_ : unit) => push [(x, VInt i)] st)
    (fun i _ => match f i with Some r => inr (Ok (FRet (Some r)), push [(x, VInt i)] st) | None => inl tt end)
    lo hi init c post body st tt fl0 H1 ltac:(intros; apply H2)).
  - assert (E : forall l,
      zrun (fun i (_ : unit) => match f i with Some r => inr (Ok (FRet (Some r)), push [(x, VInt i)] st) | None => inl tt end) l tt
      = match zfind f l with
        | Some r => zrun (fun i (_ : unit) => match f i with Some r => inr (Ok (FRet (Some r)), push [(x, VInt i)] st) | None => inl tt end) l tt
        | None => inl tt
        end).
    { induction l as [|i l IH]; [reflexivity|]. cbn [zrun zfind]. destruct (f i); [reflexivity|]. exact IH. }
    destruct (zfind f (zrange lo hi)) as [r|] eqn:Ef.
    + clear E. revert Ef. generalize (zrange lo hi) as l. induction l as [|i l IH]; [discriminate|].
      cbn [zrun zfind]. destruct (f i) as [b|] eqn:Eb; [intros [= ->]; now destruct st | exact IH].
    + rewrite E, Ef. now destruct st.
  - intros i s Hi. specialize (H3 i Hi). destruct (f i).
    + split; [exact H3 | exact Logic.I].
    + exists FNext. split; [now left | exact H3].
  - intros i s. apply H4.
  - exact H5.
Qed.
Ltac find_for x f top :=
  let i := fresh "i" in let Hi := fresh "Hi" in
  erewrite plug_exec;
    [ | eapply (ex_for_find _ x f) with (hi := top);
        [ blk | intros i; red_env; first [solve [ev] | le_cond] | intros i Hi; red_env | intros i; red_env; blk | try lia ] ].
Lemma zfind_two {B} (t : Z * Z -> bool) (f : Z -> option B) (r : B) (l1 l2 : list FeatV) :
  length l1 = length l2 ->
  (forall i, f i = if t (vget l1 i, vget l2 i) then None else Some r) ->
  zfind f (zrange 0 (Z.of_nat (length l1))) = if forallb t (combine l1 l2) then None else Some r.
Proof.
  intros Hl Hf.
  assert (E : forall m1 m2 p1 p2, length m1 = length m2 -> length p1 = length p2 ->
    l1 = p1 ++ m1 -> l2 = p2 ++ m2 ->
    zfind f (zrange (Z.of_nat (length p1)) (Z.of_nat (length l1)))
    = if forallb t (combine m1 m2) then None else Some r).
  { induction m1 as [|x m1 IH]; intros [|y m2] p1 p2 Hm Hp E1 E2; try discriminate.
    - rewrite E1, app_nil_r, zrange_nil by lia. reflexivity.
    - rewrite zrange_cons by (rewrite E1, app_length; cbn; lia). cbn [zfind combine forallb].
      assert (X : vget l1 (Z.of_nat (length p1)) = x) by (unfold vget; rewrite Nat2Z.id, E1; apply nth_middle).
      assert (Y : vget l2 (Z.of_nat (length p1)) = y) by (unfold vget; rewrite Nat2Z.id, E2, Hp; apply nth_middle).
      rewrite Hf, X, Y. destruct (t (x, y)); [|reflexivity]. cbn [andb].
      specialize (IH m2 (p1 ++ [x]) (p2 ++ [y])). rewrite !app_length in IH. cbn [length] in IH.
      replace (Z.of_nat (length p1) + 1) with (Z.of_nat (length p1 + 1)) by lia.
      apply IH; [now injection Hm | lia | now rewrite <- app_assoc | now rewrite <- app_assoc]. }
  exact (E l1 l2 [] [] Hl eq_refl eq_refl eq_refl).
Qed.
Lemma rfind_any {A B} (p : A -> bool) (r : B) (l : list A) i :
  rfind (fun _ a => if p a then Some r else None) i l = if existsb p l then Some r else None.
Proof. revert i. induction l as [|a l IH]; intros i; [reflexivity|]. cbn. now destruct (p a). Qed.

(* ---- the walk of allcomp/const.go ---- *)

Definition v_seen (l : list Z) : val := VMap (map (fun z => (VInt z, VStc "struct" [])) l).
Lemma seen_idx l z : exists w, v_index2 (v_seen l) (VInt z) = Ok (VTup [w; VBool (existsb (Z.eqb z) l)]).
Proof.
  unfold v_seen, v_index2.
  assert (E : map_get (VInt z) (map (fun z => (VInt z, VStc "struct" [])) l)
              = if existsb (Z.eqb z) l then Some (VStc "struct" []) else None).
  { induction l as [|x l IH]; [reflexivity|]. cbn [map map_get existsb]. change (veq (VInt x) (VInt z)) with (x =? z). rewrite (Z.eqb_sym x z).
    destruct (z =? x); [reflexivity | exact IH]. }
  rewrite E. destruct (existsb _ _); eauto.
Qed.
Lemma seen_set l z :
  existsb (Z.eqb z) l = false -> v_set_index (v_seen l) (VInt z) (VStc "struct" []) = Ok (v_seen (z :: l)).
Proof.
  intros H. unfold v_seen, v_set_index, map_set.
  assert (E : map_upd (VInt z) (VStc "struct" []) (map (fun z => (VInt z, VStc "struct" [])) l) = None).
  { induction l as [|x l IH]; [reflexivity|]. cbn [map map_upd existsb] in *. change (veq (VInt x) (VInt z)) with (x =? z). rewrite (Z.eqb_sym x z).
    destruct (z =? x); [discriminate|]. now rewrite IH. }
  now rewrite E.
Qed.
Lemma ev_app_arg_panic n e a st st1 st2 v :
  EV n e st = (Ok v, st1) -> EV n a st1 = (Panic, st2) -> EV n (XApp e [a]) st = (Panic, st2).
Proof. intros H1 H2. cbn [eval]. unfold xbind. rewrite H1. cbn. unfold xbind. now rewrite H2. Qed.

(* const.go:62-65: the stack as the slice, its top at the end *)
Definition go_push (nodes : list node) (p : list node * list Z) (child : Z) : bool * (list node * list Z) :=
  let (stk, vis) := p in
  if existsb (Z.eqb child) vis then (true, p)
  else match sget nodes child with
       | Ok nd => (true, (stk ++ [nd], child :: vis))
       | _ => (false, (stk, child :: vis))
       end.
Definition then_go (nd : node) (q : bool * (list node * list Z)) : turn (node * (list node * list Z)) :=
  if fst q then TGo (nd, snd q) else TStop Panic (nd, snd q).
Definition all_turn (dim : nat) (nodes : list node) (val : list FeatV) (b : bool)
    (p : node * (list node * list Z)) : turn (node * (list node * list Z)) :=
  let nd := last (fst (snd p)) (fst p) in
  let q := (removelast (fst (snd p)), snd (snd p)) in
  if IsLeaf nd then
    if eqb (nValue nd) b then TGo (nd, q) else TStop (Ok (FRet (Some [v_cnf FalseCNF; VNil]))) (nd, q)
  else if (nFeat nd <? 0) || (Z.of_nat dim <=? nFeat nd) then
    TStop (node_fail (feat_range_err (nFeat nd) dim)) (nd, q)
  else
    let x := vget val (nFeat nd) in
    if x =? BOT then
      let q1 := go_push nodes q (zChild nd) in
      if fst q1 then then_go nd (go_push nodes (snd q1) (oChild nd)) else TStop Panic (nd, snd q1)
    else if x =? ZERO then then_go nd (go_push nodes q (zChild nd))
    else if x =? ONE then then_go nd (go_push nodes q (oChild nd))
    else TGo (nd, q).
Lemma go_push_model nodes stk vis child :
  ac_push nodes (rev stk, vis) child
  = let q := go_push nodes (stk, vis) child in
    if fst q then Ok (rev (fst (snd q)), snd (snd q)) else Panic.
Proof.
  unfold ac_push, go_push. destruct (existsb _ _); [reflexivity|].
  destruct (sget_cases nodes child) as [(nd & ->)| ->]; [|reflexivity]. cbn [rbind fst snd].
  now rewrite rev_app_distr.
Qed.
Definition some_stack (p : node * (list node * list Z)) : bool := 0 <? Z.of_nat (length (fst (snd p))).
Lemma all_wrun dim nodes val b : length val = dim -> forall fuel nd stk vis,
  match ac_loop fuel dim nodes val b (rev stk, vis) with
  | Ok true => exists p, wrun some_stack (all_turn dim nodes val b) fuel (nd, (stk, vis)) = WEnd p
  | Ok false => exists p, wrun some_stack (all_turn dim nodes val b) fuel (nd, (stk, vis))
                          = WStop (Ok (FRet (Some [v_cnf FalseCNF; VNil]))) p
  | Err e => exists p, wrun some_stack (all_turn dim nodes val b) fuel (nd, (stk, vis)) = WStop (node_fail e) p
  | Panic => exists p, wrun some_stack (all_turn dim nodes val b) fuel (nd, (stk, vis)) = WStop Panic p
  | Hang => exists p, wrun some_stack (all_turn dim nodes val b) fuel (nd, (stk, vis)) = WHang p
  end.
Proof.
  intros Hv. induction fuel as [|fuel IH]; intros nd stk vis; cbn [ac_loop wrun]; [eauto|].
  destruct stk as [|a stk _] using rev_ind; [cbn; eauto|].
  rewrite rev_app_distr. cbn [rev app]. unfold some_stack at 1 3 5 7 9. cbn [fst snd].
  rewrite app_length. cbn [length]. replace (0 <? Z.of_nat (length stk + 1)) with true by lia.
  unfold all_turn at 1 3 5 7 9. cbn [fst snd]. rewrite last_last, removelast_last.
  destruct (IsLeaf a); [destruct (eqb (nValue a) b); [apply IH|]; cbn; eauto|].
  destruct ((nFeat a <? 0) || (Z.of_nat dim <=? nFeat a)) eqn:Ef; [cbn; eauto|].
  rewrite (sget_vget val (nFeat a)) by lia. cbn [rbind]. cbv zeta.
  destruct (vget val (nFeat a) =? BOT).
  { rewrite go_push_model. cbv zeta. destruct (go_push nodes (stk, vis) (zChild a)) as [[] [stk1 vis1]]; cbn [fst snd rbind]; [|eauto].
    rewrite go_push_model. cbv zeta. unfold then_go.
    destruct (go_push nodes (stk1, vis1) (oChild a)) as [[] [stk2 vis2]]; cbn [fst snd rbind]; [apply IH | eauto]. }
  destruct (vget val (nFeat a) =? ZERO).
  { rewrite go_push_model. cbv zeta. unfold then_go.
    destruct (go_push nodes (stk, vis) (zChild a)) as [[] [stk2 vis2]]; cbn [fst snd rbind]; [apply IH | eauto]. }
  destruct (vget val (nFeat a) =? ONE).
  { rewrite go_push_model. cbv zeta. unfold then_go.
    destruct (go_push nodes (stk, vis) (oChild a)) as [[] [stk2 vis2]]; cbn [fst snd rbind]; [apply IH | eauto]. }
  cbn [rbind]. apply IH.
Qed.
Lemma ac_loop_more dim nodes val b : forall fuel fuel' st, (fuel <= fuel')%nat ->
  ac_loop fuel dim nodes val b st <> Hang ->
  ac_loop fuel' dim nodes val b st = ac_loop fuel dim nodes val b st.
Proof.
  induction fuel as [|fuel IH]; intros [|fuel'] st Hf H; try lia; [now destruct H..|].
  cbn [ac_loop] in *. destruct st as [[|n stk] vis]; [reflexivity|].
  destruct (IsLeaf n); [destruct (eqb _ _); [apply IH; [lia | exact H] | reflexivity]|].
  destruct (_ || _); [reflexivity|]. destruct (sget val (nFeat n)); [|reflexivity..]. cbn [rbind] in *.
  match goal with |- rbind ?x _ = _ => destruct x end; [|reflexivity..]. cbn [rbind] in *. apply IH; [lia | exact H].
Qed.
Lemma allcomp_fuels dim nodes c b root fuel :
  length (cVal c) = dim -> hd_error nodes = Some root -> (length nodes + 2 <= fuel)%nat ->
  allcomp_const dim nodes c b = ac_loop fuel dim nodes (cVal c) b ([root], []).
Proof.
  intros Hc Hr Hf. pose proof (allcomp_total dim nodes c b Hc) as T. unfold allcomp_const in *.
  destruct nodes as [|r ns] eqn:En; [discriminate|]. injection Hr as ->. rewrite <- En in *.
  symmetry. apply ac_loop_more; [exact Hf|].
  destruct T as [(r & ->)|[(e & ->)|(-> & _)]]; discriminate.
Qed.

Lemma top_idx l a : v_index (v_nodes (l ++ [a])) (VInt (Z.of_nat (length (l ++ [a])) - 1)) = Ok (v_node a).
Proof.
  rewrite app_length. cbn [length]. replace (Z.of_nat (length l + 1) - 1) with (Z.of_nat (length l)) by lia.
  rewrite (idx_nodes _ _ a); [|rewrite app_length; cbn; lia]. now rewrite Nat2Z.id, nth_middle.
Qed.
Lemma top_slc l a :
  v_slice (v_nodes (l ++ [a])) None (Some (VInt (Z.of_nat (length (l ++ [a])) - 1))) = Ok (v_nodes l).
Proof.
  unfold v_slice, v_len, v_nodes. cbn [rbind]. rewrite map_length, app_length. cbn [length].
  destruct (_ && _) eqn:E; [|lia]. do 2 f_equal.
  rewrite skipn_O, map_app.
  replace (Z.to_nat _) with (length (map v_node l)) by (rewrite map_length; lia).
  now rewrite firstn_app, Nat.sub_diag, firstn_all, app_nil_r.
Qed.

Lemma idx_node l z nd : sget l z = Ok nd -> v_index (v_nodes l) (VInt z) = Ok (v_node nd).
Proof. intros H. unfold v_nodes, v_index. now rewrite sget_map, H. Qed.
Lemma idx_node_panic l z : sget l z = Panic -> v_index (v_nodes l) (VInt z) = Panic.
Proof. intros H. unfold v_nodes, v_index. now rewrite sget_map, H. Qed.
(* The cases of a push, with the reads and writes it does. *)
Inductive pushed (nodes : list node) (stk : list node) (vis : list Z) (z : Z) : bool * (list node * list Z) -> Prop :=
| push_skip w : v_index2 (v_seen vis) (VInt z) = Ok (VTup [w; VBool true]) -> pushed nodes stk vis z (true, (stk, vis))
| push_done w nd :
    v_index2 (v_seen vis) (VInt z) = Ok (VTup [w; VBool false]) ->
    v_set_index (v_seen vis) (VInt z) (VStc "struct" []) = Ok (v_seen (z :: vis)) ->
    v_index (v_nodes nodes) (VInt z) = Ok (v_node nd) ->
    pushed nodes stk vis z (true, (stk ++ [nd], z :: vis))
| push_fail w :
    v_index2 (v_seen vis) (VInt z) = Ok (VTup [w; VBool false]) ->
    v_set_index (v_seen vis) (VInt z) (VStc "struct" []) = Ok (v_seen (z :: vis)) ->
    v_index (v_nodes nodes) (VInt z) = Panic ->
    pushed nodes stk vis z (false, (stk, z :: vis)).
Lemma push_cases nodes stk vis z : pushed nodes stk vis z (go_push nodes (stk, vis) z).
Proof.
  unfold go_push. destruct (seen_idx vis z) as (w & E). destruct (existsb (Z.eqb z) vis) eqn:Ex.
  - now apply push_skip with w.
  - pose proof (seen_set _ _ Ex). destruct (sget_cases nodes z) as [(nd & Eg)|Eg]; rewrite Eg.
    + apply push_done with w; auto. now apply idx_node.
    + apply push_fail with w; auto. now apply idx_node_panic.
Qed.
Lemma nodes_app l nd : VLst (map v_node l ++ [v_node nd]) = v_nodes (l ++ [nd]).
Proof. unfold v_nodes. now rewrite map_app. Qed.

Section Exts.
Variables (s : scoper) (M : model) (g : heap) (vm : varman).
Notation ENC n f a := (gocall n f [v_atom a; VPtr 0] (hc s M g vm)).
Notation C := (mkCtx s vm M).
Notation HC := (hc s M g).
Notation CL x := (fun p : list clause * varman => [(x%string, v_clauses (fst p))]).
Notation NC x := (fun p : CNF * varman => [(x%string, v_cnf (fst p))]).
Notation HL := (fun p : list clause * varman => HC (snd p)).
Notation HN := (fun p : CNF * varman => HC (snd p)).

Lemma go_FullV n v :
  (levels s + 4 <= n)%nat -> (Dim M + 2 <= n)%nat ->
  says g (ENC n "full.Var.Encoding" (FullV v)) (enc_atom (FullV v) C).
Proof.
  enter src_full_Var_Encoding. stp. scopevar v w. stp. stp.
  for_new "i" (CL "clauses") HL (fun i => addp [[Ln w i BOT]]) from (@nil clause, vm) to (Z.of_nat (Dim M)).
  - sts. apply says_from. now rewrite addp_map, addp_start.
  - sts. endbody.
Qed.
Lemma go_FullC n c :
  (levels s + 4 <= n)%nat -> (Dim M + 2 <= n)%nat ->
  says g (ENC n "full.Const.Encoding" (FullC c)) (enc_atom (FullC c) C).
Proof.
  enter src_full_Const_Encoding. stp. const c k.
  destruct (ValidateConstsDim (Dim M) [k]) as [e|] eqn:V; sts; [reflexivity|].
  find_idx (fun (i : Z) (ft : FeatV) => if ft =? BOT then Some [v_cnf FalseCNF; VNil] else None).
  - rewrite rfind_any. unfold guard, full_c. destruct (existsb _ _); sts; reflexivity.
  - unfold BOT. stp. destruct (a =? 0); sts; reflexivity.
Qed.

Lemma go_ConsVV n v1 v2 :
  (levels s + 4 <= n)%nat -> (Dim M + 2 <= n)%nat ->
  says g (ENC n "cons.VarVar.Encoding" (ConsVV v1 v2)) (enc_atom (ConsVV v1 v2) C).
Proof.
  enter src_cons_VarVar_Encoding. stp. scopevar v1 w1. stp. scopevar v2 w2. stp. stp.
  for_new "i" (CL "clauses") HL (fun i => addp [[Ln w1 i ONE; Ln w2 i ZERO]; [Ln w1 i ZERO; Ln w2 i ONE]])
    from (@nil clause, vm) to (Z.of_nat (Dim M)).
  - sts. apply says_from. now rewrite addp_fold, addp_start.
  - sts. endbody.
Qed.
Lemma cons_ret w val :
  says g (Ok [v_cnf (FromClauses (fst (addp (cons_vc w val) ([], vm)))); VNil], HC (snd (addp (cons_vc w val) ([], vm))))
    (let (f, vm') := run_emits vm [EFrom (cons_vc w val)] in (Ok f, set_vm C vm')).
Proof. apply says_from. now rewrite addp_start. Qed.
Notation VAL w := (fun (i : Z) (ft : FeatV) => addp (if ft =? BOT then [] else [[Ln w i (if ft =? ZERO then ONE else ZERO)]])).
Lemma go_ConsVC n v c :
  (levels s + 4 <= n)%nat -> (Dim M + 2 <= n)%nat ->
  says g (ENC n "cons.VarConst.Encoding" (ConsVC v c)) (enc_atom (ConsVC v c) C).
Proof.
  enter src_cons_VarConst_Encoding. stp. scopevar v w. stp. const c k. 
  destruct (ValidateConstsDim (Dim M) [k]) as [e|] eqn:V; sts; [reflexivity|].
  range_idx (CL "clauses") HL (VAL w) from (@nil clause, vm).
  - rewrite addp_ifold. stp. stp.
    match goal with |- context [addp ?x _] => change x with (cons_vc w (cVal k)) end.
    pose proof (cons_ret w (cVal k)) as R. cbn [guard].
    destruct (addp (cons_vc w (cVal k)) ([], vm)) as [cls vm1] eqn:Ea. cbn [fst snd] in *.
    destruct cls as [|cl cls]; [sts; exact R|].
    change (Z.of_nat (length (cl :: cls)) =? 0) with false. cbv iota. sts. exact R.
  - unfold BOT, ZERO, ONE. stp. destruct (a =? 0); [rewrite addp_nil; sts; endbody|]. stp. stp. stp.
    destruct (a =? 1); sts; endbody.
Qed.
Lemma go_ConsCV n c v :
  (levels s + 4 <= n)%nat -> (Dim M + 2 <= n)%nat ->
  says g (ENC n "cons.ConstVar.Encoding" (ConsCV c v)) (enc_atom (ConsCV c v) C).
Proof.
  enter src_cons_ConstVar_Encoding. stp. const c k. scopevar v w. stp.
  destruct (ValidateConstsDim (Dim M) [k]) as [e|] eqn:V; sts; [reflexivity|].
  range_idx (CL "clauses") HL (VAL w) from (@nil clause, vm).
  - rewrite addp_ifold. stp. stp.
    match goal with |- context [addp ?x _] => change x with (cons_vc w (cVal k)) end.
    pose proof (cons_ret w (cVal k)) as R. cbn [guard].
    destruct (addp (cons_vc w (cVal k)) ([], vm)) as [cls vm1] eqn:Ea. cbn [fst snd] in *.
    destruct cls as [|cl cls]; [sts; exact R|].
    change (Z.of_nat (length (cl :: cls)) =? 0) with false. cbv iota. sts. exact R.
  - unfold BOT, ZERO, ONE. stp. destruct (a =? 0); [rewrite addp_nil; sts; endbody|]. stp. stp. stp.
    destruct (a =? 1); sts; endbody.
Qed.
Lemma go_ConsCC n c1 c2 :
  (levels s + 4 <= n)%nat -> (Dim M + 2 <= n)%nat ->
  says g (ENC n "cons.ConstConst.Encoding" (ConsCC c1 c2)) (enc_atom (ConsCC c1 c2) C).
Proof.
  enter src_cons_ConstConst_Encoding. stp. const c1 k1. const c2 k2.
  destruct (ValidateConstsDim (Dim M) [k1; k2]) as [e|] eqn:V; sts; [reflexivity|].
  pose proof (valid_lens _ _ k1 V ltac:(now left)) as L1. pose proof (valid_lens _ _ k2 V ltac:(now (right; left))) as L2.
  set (t := fun p : Z * Z => negb (negb (fst p =? BOT) && negb (snd p =? BOT) && negb (fst p =? snd p))).
  find_for "i" (fun i => if t (vget (cVal k1) i, vget (cVal k2) i) then None else Some [v_cnf FalseCNF; VNil]) (Z.of_nat (Dim M)).
  - rewrite <- L1. rewrite (zfind_two t _ [v_cnf FalseCNF; VNil] (cVal k1) (cVal k2)) by (congruence || reflexivity).
    unfold guard, cons_cc. fold t. destruct (forallb _ _); sts; reflexivity.
  - unfold t, BOT. cbn [fst snd]. stp.
    destruct (vget (cVal k1) i =? 0), (vget (cVal k2) i =? 0), (vget (cVal k1) i =? vget (cVal k2) i);
      cbn [negb andb]; sts; reflexivity.
Qed.

Lemma go_AllV n v b k :
  (levels s + 5 <= n)%nat -> (Dim M + 4 <= n)%nat ->
  says g (ENC n "allcomp.Var.Encoding" (AllV v b k)) (enc_atom (AllV v b k) C).
Proof.
  destruct k as [gen|].
  2:{ enter src_allcomp_Var_Encoding. sts. reflexivity. }
  enter src_allcomp_Var_Encoding. stp. stp. stp. stp.
  destruct (Nodes M) as [|n0 ns] eqn:En; [sts; reflexivity|].
  rewrite <- En in *. assert (El : Z.of_nat (length (Nodes M)) =? 0 = false) by (rewrite En; reflexivity).
  rewrite El. cbv iota. stp. scopevar v w. sts. cbn [rbind].
  range_idx (NC "ncnf") HN (fun i nd => emitsp (allcomp_node w (gen w) b i nd))
    from (emitp (ECons [[Lp (gen w) 0 0]]) (TrueCNF, vm)).
  - rewrite emit_ifold. sts. apply says_emits. symmetry. apply (emitsp_start (ECons _ :: _)).
  - stp. unfold allcomp_node. destruct (IsLeaf a).
    + stp. destruct (nValue a), b; cbn [eqb negb]; sts; endbody.
    + sts. endbody.
Qed.

(* to the switch of const.go:60 *)
Ltac top E1 E2 := stp; stp; rewrite E1; cbv iota; stp; stp; orbs; rewrite E2; cbv iota; stp; stp.
Ltac fails H :=
  erewrite plug_panic; [|eapply ex_assign_panic; eapply ev_app_arg_panic; [ev|eapply ev_idx_panic; [ev|ev|exact H]]];
  sts; reflexivity.
Lemma go_AllC n c b :
  (levels s + 5 <= n)%nat -> (length (Nodes M) + 3 <= n)%nat ->
  says g (ENC n "allcomp.Const.Encoding" (AllC c b)) (enc_atom (AllC c b) C).
Proof.
  enter src_allcomp_Const_Encoding. stp. const c k. stp.
  destruct (ValidateConstsDim (Dim M) [k]) eqn:Ev; [sts; reflexivity|].
  pose proof (valid_lens _ _ k Ev ltac:(now left)) as Hl.
  stp. stp. stp.
  destruct (Nodes M) as [|n0 ns] eqn:En; [sts; reflexivity|].
  rewrite <- En in *. assert (El : Z.of_nat (length (Nodes M)) =? 0 = false) by (rewrite En; reflexivity).
  rewrite El. cbv iota.
  assert (E0 : v_index (v_nodes (Nodes M)) (VInt 0) = Ok (v_node n0)) by (rewrite En; reflexivity).
  stp. stp. stp. stp. stp. set (nz := mkNode false 0 0 0).
  while_inv (fun p : node * (list node * list Z) =>
      [("n"%string, v_node (fst p)); ("nstack"%string, v_nodes (fst (snd p))); ("nvisited"%string, v_seen (snd (snd p)))])
    (fun p : node * (list node * list Z) => HC vm) some_stack (all_turn (Dim M) (Nodes M) (cVal k) b)
    from (nz, ([n0], @nil Z)) keeping (fun p : node * (list node * list Z) => True).
  - rewrite (allcomp_fuels (Dim M) (Nodes M) k b n0 n Hl) by (lia || now rewrite En).
    pose proof (all_wrun (Dim M) (Nodes M) (cVal k) b Hl n nz [n0] []) as W. cbn [rev app] in W.
    destruct (ac_loop n (Dim M) (Nodes M) (cVal k) b ([n0], [])) as [[]|e| |]; destruct W as (p & ->).
    + red_env. sts. reflexivity.
    + reflexivity.
    + reflexivity.
    + reflexivity.
    + reflexivity.
  - exact Logic.I.
  - destruct s0 as (nd & stk & vis). unfold some_stack in Hc. cbn [fst snd] in *.
    destruct stk as [|a stk _] using rev_ind; [discriminate|]. clear Hc Hs.
    pose proof (top_idx stk a) as T1. pose proof (top_slc stk a) as T2.
    unfold all_turn. cbn [fst snd]. rewrite last_last, removelast_last.
    destruct (IsLeaf a) eqn:E1.
    { destruct (eqb (nValue a) b) eqn:E2.
      - split; [exact Logic.I|]. stp. stp. rewrite E1. cbv iota. stp. destruct (nValue a), b; try discriminate; sts; endbody.
      - split; [|exact Logic.I]. stp. stp. rewrite E1. cbv iota. stp. destruct (nValue a), b; try discriminate; sts; reflexivity. }
    destruct ((nFeat a <? 0) || (Z.of_nat (Dim M) <=? nFeat a)) eqn:E2.
    { split; [|exact Logic.I]. stp. stp. rewrite E1. cbv iota. stp. stp. orbs. rewrite E2. sts. reflexivity. }
    assert (E3 : v_index (v_feats (cVal k)) (VInt (nFeat a)) = Ok (VInt (vget (cVal k) (nFeat a))))
      by (apply idx_vget; lia).
    cbv zeta.
    destruct (vget (cVal k) (nFeat a) =? BOT) eqn:E4.
    { unfold BOT in E4.
      destruct (push_cases (Nodes M) stk vis (zChild a)) as [w1 P1|w1 nd1 P1 P2 P3|w1 P1 P2 P3]; cbn [fst snd].
      - destruct (push_cases (Nodes M) stk vis (oChild a)) as [w2 Q1|w2 nd2 Q1 Q2 Q3|w2 Q1 Q2 Q3]; unfold then_go; cbn [fst snd].
        + split; [exact Logic.I|]. top E1 E2. rewrite E4. cbv iota. sts. endbody.
        + split; [exact Logic.I|]. top E1 E2. rewrite E4. cbv iota. sts. rewrite nodes_app. endbody.
        + split; [|exact Logic.I]. top E1 E2. rewrite E4. cbv iota. stp. stp. stp. fails Q3.
      - destruct (push_cases (Nodes M) (stk ++ [nd1]) (zChild a :: vis) (oChild a)) as [w2 Q1|w2 nd2 Q1 Q2 Q3|w2 Q1 Q2 Q3]; unfold then_go; cbn [fst snd].
        + split; [exact Logic.I|]. top E1 E2. rewrite E4. cbv iota. stp. stp. stp. rewrite nodes_app. sts. endbody.
        + split; [exact Logic.I|]. top E1 E2. rewrite E4. cbv iota. stp. stp. stp. rewrite nodes_app. sts. rewrite nodes_app. endbody.
        + split; [|exact Logic.I]. top E1 E2. rewrite E4. cbv iota. stp. stp. stp. rewrite nodes_app. stp. stp. fails Q3.
      - split; [|exact Logic.I]. top E1 E2. rewrite E4. cbv iota. stp. stp. fails P3. }
    unfold BOT in E4. destruct (vget (cVal k) (nFeat a) =? ZERO) eqn:E5; unfold ZERO in E5.
    { destruct (push_cases (Nodes M) stk vis (zChild a)) as [w1 P1|w1 nd1 P1 P2 P3|w1 P1 P2 P3]; unfold then_go; cbn [fst snd].
      - split; [exact Logic.I|]. top E1 E2. rewrite E4. cbv iota. stp. rewrite E5. cbv iota. sts. endbody.
      - split; [exact Logic.I|]. top E1 E2. rewrite E4. cbv iota. stp. rewrite E5. cbv iota. sts. rewrite nodes_app. endbody.
      - split; [|exact Logic.I]. top E1 E2. rewrite E4. cbv iota. stp. rewrite E5. cbv iota. stp. stp. fails P3. }
    destruct (vget (cVal k) (nFeat a) =? ONE) eqn:E6; unfold ONE in E6.
    { destruct (push_cases (Nodes M) stk vis (oChild a)) as [w1 P1|w1 nd1 P1 P2 P3|w1 P1 P2 P3]; unfold then_go; cbn [fst snd].
      - split; [exact Logic.I|]. top E1 E2. rewrite E4. cbv iota. stp. rewrite E5. cbv iota. stp. rewrite E6. cbv iota. sts. endbody.
      - split; [exact Logic.I|]. top E1 E2. rewrite E4. cbv iota. stp. rewrite E5. cbv iota. stp. rewrite E6. cbv iota. sts. rewrite nodes_app. endbody.
      - split; [|exact Logic.I]. top E1 E2. rewrite E4. cbv iota. stp. rewrite E5. cbv iota. stp. rewrite E6. cbv iota. stp. stp. fails P3. }
    split; [exact Logic.I|]. top E1 E2. rewrite E4. cbv iota. stp. rewrite E5. cbv iota. stp. rewrite E6. cbv iota. sts. endbody.
Qed.
End Exts.
