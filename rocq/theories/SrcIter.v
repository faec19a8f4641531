(* The iterator of query/logop/forallguarded.go against the model. *)
From Verif Require Import GoBase GoLemmas Cnf Query Walk Atoms Logop GoLang GoSource SrcBase SrcLemmas SrcCnf SrcQuery SrcCtx SrcPred SrcNode SrcExt SrcDfs TreeLemmas WalkLemmas Total.
Local Open Scope string_scope.
Local Open Scope Z_scope.
Local Open Scope list_scope.

(* ---- cells ---- *)

Lemma heap_at (h1 : heap) x h2 : heap_get (h1 ++ x :: h2) (length h1) = Some x.
Proof. unfold heap_get. rewrite nth_error_app2 by lia. now rewrite Nat.sub_diag. Qed.
Lemma heap_put (h1 : heap) x h2 y : heap_set (h1 ++ x :: h2) (length h1) y = h1 ++ y :: h2.
Proof. unfold heap_set. induction h1 as [|a h1 IH]; [reflexivity|]. cbn. now rewrite IH. Qed.

Section Cells.
  Variable n : nat.
  Lemma ev_new e st v env d h :
    EV n e st = (Ok v, mkMs env d h) ->
    EV n (XNew e) st = (Ok (VPtr (length h)), mkMs env d (h ++ [v])).
  Proof. intros H. cbn [eval]. unfold xbind. rewrite H. reflexivity. Qed.
  Lemma ev_deref e st h1 x h2 env d :
    EV n e st = (Ok (VPtr (length h1)), mkMs env d (h1 ++ x :: h2)) ->
    EV n (XDeref e) st = (Ok x, mkMs env d (h1 ++ x :: h2)).
  Proof. intros H. cbn [eval]. unfold xbind. rewrite H. unfold x_load. cbn [mHeap]. now rewrite heap_at. Qed.
  Lemma rd_deref e st h1 x h2 env d :
    EV n e st = (Ok (VPtr (length h1)), mkMs env d (h1 ++ x :: h2)) ->
    x_read (EV n) (LDeref e) st = (Ok x, mkMs env d (h1 ++ x :: h2)).
  Proof. intros H. cbn [x_read]. unfold xbind. rewrite H. unfold x_load. cbn [mHeap]. now rewrite heap_at. Qed.
  Lemma as_deref e st h1 x h2 env d w :
    EV n e st = (Ok (VPtr (length h1)), mkMs env d (h1 ++ x :: h2)) ->
    x_assign (EV n) (LDeref e) w st = (Ok tt, mkMs env d (h1 ++ w :: h2)).
  Proof.
    intros H. cbn [x_assign]. unfold xbind. rewrite H. unfold x_store. cbn [mHeap mEnv mDefers].
    now rewrite heap_put.
  Qed.
End Cells.

(* ---- making an iterator ---- *)

Lemma go_validateNode_logop n h nd d k :
  (2 <= n)%nat ->
  gocall n "logop.validateNode" [v_node nd; VInt (Z.of_nat d); VInt (Z.of_nat k)] h
  = (Ok [v_err (validateNode nd d k)], h).
Proof. valid_node src_logop_validateNode nd. Qed.
Global Hint Resolve go_validateNode_logop : gocall.

(* forallguarded.go:24-36; p is the cell that holds t *)
Definition v_winfo (w : walkInfo) : val :=
  VStc "logop.walkInfo" [("prev", VInt (wprev w)); ("visited", VBool (wvisited w))].
Definition v_winfos (l : list walkInfo) : val := VLst (map v_winfo l).
Definition v_iter (p : nat) (i : iter) : val :=
  VStc "logop.nodeAsValuesIter"
    [("t", VPtr p); ("nodes", v_nodes (it_nodes i)); ("walk", v_winfos (it_walk i)); ("cp", VInt (it_cp i))].
Definition v_iter0 : val :=
  VStc "logop.nodeAsValuesIter" [("t", VNil); ("nodes", VLst []); ("walk", VLst []); ("cp", VInt 0)].

Lemma idx_winfos w z : below_len w z -> v_index (v_winfos w) (VInt z) = Ok (v_winfo (wat w z)).
Proof. intros H. unfold v_winfos, v_index. now rewrite sget_map, sget_wat. Qed.
Lemma set_idx_winfos w z x : below_len w z -> v_set_index (v_winfos w) (VInt z) (v_winfo x) = Ok (v_winfos (list_set w (Z.to_nat z) x)).
Proof. intros H. unfold v_winfos, v_set_index. rewrite (sset_map v_winfo). now rewrite sset_ok. Qed.

Lemma go_newIter n h d nodes :
  (3 <= n)%nat ->
  gocall n "logop.newNodeAsValuesIter" [VInt (Z.of_nat d); v_nodes nodes] h
  = match newNodeAsValuesIter d nodes with
    | Ok i => (Ok [VPtr (length h); v_iter (length h) i; VNil], h ++ [v_feats (it_t i)])
    | Err e => (Ok [VNil; v_iter0; VErr e []], h)
    | Panic => (Panic, h)
    | Hang => (Hang, h)
    end.
Proof.
  func src_logop_newNodeAsValuesIter. stp. stp. unfold newNodeAsValuesIter.
  destruct nodes as [|n0 nodes0] eqn:En; [sts; reflexivity|]. rewrite <- En in *.
  assert (Hl : Z.of_nat (length nodes) =? 0 = false) by (rewrite En; cbn [length]; lia).
  rewrite Hl. cbv iota. stp.
  find_idx (fun (i : Z) (nd : node) => option_map (fun e => [VNil; v_iter0; VErr e []]) (validateNode nd d (length nodes))).
  2:{ stp. destruct (validateNode a d (length nodes)); sts; reflexivity. }
  rewrite rfind_valid.
  destruct (validateNodes nodes d (length nodes)) as [e|] eqn:V; cbn [option_map]; [sts; reflexivity|].
  stp.
  pose proof (v_make_rep VInt 0 d) as Em. fold (v_feats (repeat 0 d)) in Em.
  assert (Ew : v_make (v_winfo (mkWalk 0 false)) (VInt (Z.of_nat (length nodes))) = Ok (v_winfos (repeat (mkWalk 0 false) (length nodes)))).
  { cbn [v_make v_winfo]. replace (Z.of_nat (length nodes) <? 0) with false by lia. rewrite Nat2Z.id. unfold v_winfos. now rewrite map_rep. }
  erewrite plug_step; [|eapply ex_assign; [eapply ev_new; ev | asg]].
  sts. reflexivity.
Qed.

(* ---- Next ---- *)

(* pp, zp, op *)
Definition irest : Type := Z * Z * Z.
Definition irest_turn (i : iter) (r : irest) : irest :=
  let '(pp, zp, op) := r in
  let cp := it_cp i in
  let nd := at_ (it_nodes i) cp in
  if wvisited (wat (it_walk i) cp) then
    if IsLeaf nd then r
    else if negb (wvisited (wat (it_walk i) (zChild nd))) then (cp, zChild nd, op)
    else if negb (wvisited (wat (it_walk i) (oChild nd))) then (cp, zChild nd, oChild nd)
    else (pp, zChild nd, oChild nd)
  else r.
Definition it_turn (p : iter * irest) : turn (iter * irest) :=
  match it_step (fst p) with
  | Ok (inl i) => TGo (i, irest_turn (fst p) (snd p))
  | Ok (inr (b, i)) => TStop (Ok (FRet (Some [VBool b]))) (i, irest_turn (fst p) (snd p))
  | _ => TStop Panic p
  end.
Lemma it_wrun : forall fuel i r b i',
  it_next fuel i = Ok (b, i') -> exists r', wrun (fun _ => true) it_turn fuel (i, r) = WStop (Ok (FRet (Some [VBool b]))) (i', r').
Proof.
  induction fuel as [|fuel IH]; intros i r b i'; cbn [it_next wrun]; [discriminate|].
  unfold it_turn at 1. cbn [fst snd]. destruct (it_step i) as [[i1|[b1 i1]]| | |]; cbn [rbind]; try discriminate.
  - apply IH.
  - intros [= -> ->]. eauto.
Qed.
Lemma it_next_more : forall fuel fuel' i, (fuel <= fuel')%nat ->
  it_next fuel i <> Hang -> it_next fuel' i = it_next fuel i.
Proof.
  induction fuel as [|fuel IH]; intros [|fuel'] i Hf H; try lia; [now destruct H..|].
  cbn [it_next] in *. destruct (it_step i) as [[i'|[b i']]| | |]; try reflexivity.
  cbn [rbind] in *. apply IH; [lia | exact H].
Qed.

Ltac put_t := erewrite plug_step;
  [|eapply ex_assign; [ev | eapply as_idx; [ev | eapply rd_deref; ev | hyp | eapply as_deref; ev]]].

Lemma go_Next n h1 h2 d i more i' :
  (3 * length (it_nodes i) + 5 <= n)%nat -> it_ok d i -> Next i = Ok (more, i') ->
  gocall n "logop.nodeAsValuesIter.Next" [v_iter (length h1) i] (h1 ++ v_feats (it_t i) :: h2)
  = (Ok [v_iter (length h1) i'; VBool more], h1 ++ v_feats (it_t i') :: h2).
Proof.
  func src_logop_nodeAsValuesIter_Next. stp.
  destruct H0 as (st0 & I0 & _).
  while_inv (fun p : iter * irest => [("i"%string, v_iter (length h1) (fst p));
       ("pp"%string, VInt (fst (fst (snd p)))); ("zp"%string, VInt (snd (fst (snd p)))); ("op"%string, VInt (snd (snd p)))])
    (fun p : iter * irest => h1 ++ v_feats (it_t (fst p)) :: h2) (fun p : iter * irest => true) it_turn
    from (i, (0, 0, 0) : irest) keeping (fun p : iter * irest => exists st, it_inv d (fst p) st).
  - assert (Em : it_next n i = Ok (more, i')).
    { rewrite <- H1. apply it_next_more; [unfold next_fuel; lia | change (Next i <> Hang); congruence]. }
    destruct (it_wrun n i (0, 0, 0) more i' Em) as (r' & Er). rewrite Er. red_env. cbn [fst snd]. sts. reflexivity.
  - exists st0. exact I0.
  - destruct s as [it [[pp zp] op]]. destruct Hs as (st & I). cbn [fst snd] in *. clear Hc.
    pose proof (it_step_total d it st I) as T.
    destruct it as [t nodes wk cp]. destruct I as (V & Lt & W). cbn [it_t it_nodes it_walk it_cp] in *. unfold v_iter. cbn [it_t it_nodes it_walk it_cp].
    pose proof W as [L R _ _]. inversion R as [|? ? Rc Rs]; subst. clear R.
    assert (Rw : forall x, below_len nodes x -> below_len wk x) by (intros x; unfold below_len; now rewrite L).
    assert (In : v_index (v_nodes nodes) (VInt cp) = Ok (v_node (at_ nodes cp))) by now apply idx_node, sget_at.
    assert (Iw : v_index (v_winfos wk) (VInt cp) = Ok (v_winfo (wat wk cp))) by now apply idx_winfos, Rw.
    assert (Keep : forall i1, it_step (mkIter t nodes wk cp) = Ok (inl i1) -> exists st, it_inv (length t) i1 st).
    { intros i1 E. rewrite E in T. destruct T as [(s' & st' & [= <-] & I & _)|[(s' & st' & ? & _)|T]]; [eauto | discriminate..]. }
    unfold it_turn, irest_turn. cbn [fst snd it_t it_nodes it_walk it_cp]. clear T.
    unfold it_step in *. cbn [it_t it_nodes it_walk it_cp] in *.
    rewrite sget_wat in * by (apply Rw; auto). cbn [rbind] in *.
    destruct (wvisited (wat wk cp)) eqn:S.
    2:{ pose proof (set_idx_winfos wk cp (mkWalk (wprev (wat wk cp)) true) (Rw _ Rc)) as Sw.
        rewrite sset_ok in * by (now apply Rw). cbn [rbind] in *.
        stp. rewrite S. cbv iota. stp. sts. split; [reflexivity | exact Logic.I]. }
    rewrite sget_at in * by auto. cbn [rbind] in *.
    assert (Up : cp =? 0 = false ->
       let p := wprev (wat wk cp) in
       v_index (v_nodes nodes) (VInt p) = Ok (v_node (at_ nodes p)) /\
       v_set_index (v_feats t) (VInt (nFeat (at_ nodes p))) (VInt 0) = Ok (v_feats (list_set t (Z.to_nat (nFeat (at_ nodes p))) 0)) /\
       it_backup (mkIter t nodes wk cp)
       = Ok (inl (mkIter (list_set t (Z.to_nat (nFeat (at_ nodes p))) 0) nodes wk p))).
    { intros Z0. cbv zeta. destruct (walk_up nodes wk cp st W S) as (p & st' & -> & P1 & P2 & P3 & P4 & P5); [lia|].
      rewrite P1. destruct (valid_at _ _ _ p V) as [X|(X & _)]; [congruence|].
      split; [now apply idx_node, sget_at|]. split; [now apply set_idx_feats|].
      unfold it_backup. cbn [it_t it_nodes it_walk it_cp]. rewrite Z0, sget_wat by (apply Rw; auto). cbn [rbind]. rewrite P1.
      rewrite sget_at by auto. cbn [rbind]. now rewrite sset_ok. }
    assert (Root : cp =? 0 = true -> it_backup (mkIter t nodes wk cp) = Ok (inr (false, mkIter t nodes wk cp)))
      by (intros Z0; unfold it_backup; cbn [it_cp]; now rewrite Z0).
    destruct (IsLeaf (at_ nodes cp)) eqn:F.
    { destruct (cp =? 0) eqn:Z0.
      - rewrite (Root eq_refl). stp. rewrite S. cbv iota. stp. rewrite F. cbv iota. jump. stp. rewrite Z0. cbv iota. sts. split; [reflexivity | exact Logic.I].
      - destruct (Up eq_refl) as (U1 & U2 & U3). cbv zeta in *. rewrite U3 in *. split; [now apply Keep|].
        stp. rewrite S. cbv iota. stp. rewrite F. cbv iota. jump. stp. rewrite Z0. cbv iota. stp. stp. put_t. sts. endbody. }
    destruct (valid_at _ _ _ cp V) as [X|(X1 & X2 & X3)]; [congruence|].
    set (nd := at_ nodes cp) in *.
    assert (Iz : v_index (v_winfos wk) (VInt (zChild nd)) = Ok (v_winfo (wat wk (zChild nd)))) by now apply idx_winfos, Rw.
    assert (Io : v_index (v_winfos wk) (VInt (oChild nd)) = Ok (v_winfo (wat wk (oChild nd)))) by now apply idx_winfos, Rw.
    pose proof (set_idx_feats t (nFeat nd) 1 X1) as S1. pose proof (set_idx_feats t (nFeat nd) 2 X1) as S2.
    pose proof (fun b => set_idx_winfos wk (zChild nd) (mkWalk cp b) (Rw _ X2)) as Sz.
    pose proof (fun b => set_idx_winfos wk (oChild nd) (mkWalk cp b) (Rw _ X3)) as So.
    assert (Down : forall c v, below_len nodes c -> it_descend (mkIter t nodes wk cp) nd c v
       = Ok (inl (mkIter (list_set t (Z.to_nat (nFeat nd)) v) nodes (list_set wk (Z.to_nat c) (mkWalk cp (wvisited (wat wk c)))) c))).
    { intros c v Hc. unfold it_descend. cbn [it_t it_nodes it_walk it_cp]. rewrite sset_ok by exact X1. cbn [rbind].
      rewrite sget_wat by now apply Rw. cbn [rbind]. now rewrite sset_ok by now apply Rw. }
    rewrite sget_wat in * by (apply Rw; exact X2). cbn [rbind] in *.
    destruct (wvisited (wat wk (zChild nd))) eqn:SZ; cbn [negb] in *.
    2:{ rewrite Down in * by exact X2. split; [now apply Keep|]. rewrite SZ.
        stp. rewrite S. cbv iota. stp. rewrite F. cbv iota. stp. stp. stp. rewrite SZ. cbn [negb]. cbv iota.
        pose proof (Sz (wvisited (wat wk (zChild nd)))) as Sz'. clear Sz So.
        put_t. sts. rewrite SZ. endbody. }
    rewrite sget_wat in * by (apply Rw; exact X3). cbn [rbind] in *.
    destruct (wvisited (wat wk (oChild nd))) eqn:SO; cbn [negb] in *.
    2:{ rewrite Down in * by exact X3. split; [now apply Keep|]. rewrite SO.
        stp. rewrite S. cbv iota. stp. rewrite F. cbv iota. stp. stp. stp. rewrite SZ. cbn [negb]. cbv iota.
        stp. stp. stp. rewrite SO. cbn [negb]. cbv iota.
        pose proof (So (wvisited (wat wk (oChild nd)))) as So'. clear Sz So.
        put_t. sts. rewrite SO. endbody. }
    clear Sz So. destruct (cp =? 0) eqn:Z0.
    + rewrite (Root eq_refl).
      stp. rewrite S. cbv iota. stp. rewrite F. cbv iota. stp. stp. stp. rewrite SZ. cbn [negb]. cbv iota.
      stp. stp. stp. rewrite SO. cbn [negb]. cbv iota. stp. rewrite plug_label. stp. rewrite Z0. cbv iota. sts. split; [reflexivity | exact Logic.I].
    + destruct (Up eq_refl) as (U1 & U2 & U3). cbv zeta in *. rewrite U3 in *. split; [now apply Keep|].
      stp. rewrite S. cbv iota. stp. rewrite F. cbv iota. stp. stp. stp. rewrite SZ. cbn [negb]. cbv iota.
      stp. stp. stp. rewrite SO. cbn [negb]. cbv iota. stp. rewrite plug_label. stp. rewrite Z0. cbv iota. stp. stp. put_t. sts. endbody.
Qed.
