(* The text of query/extensions/dfs against the model. *)
From Verif Require Import GoBase GoLemmas Cnf Query Walk Atoms Logop GoLang GoSource SrcBase SrcLemmas SrcCnf SrcQuery SrcCtx SrcPred SrcNode SrcExt TreeLemmas WalkLemmas Total.
Local Open Scope string_scope.
Local Open Scope Z_scope.
Local Open Scope list_scope.

(* ---- goto, copy ---- *)

Fixpoint after (l : string) (ss : list stmt) : option (list stmt) :=
  match ss with
  | [] => None
  | s :: r =>
      match s with
      | SLabel l' => if name_eqb l l' then Some r else after l r
      | _ => after l r
      end
  end.
Lemma run_after ex l ss r st : after l ss = Some r -> run_block ex (Some l) ss st = run_block ex None r st.
Proof.
  induction ss as [|s ss IH]; cbn [after run_block]; [discriminate|].
  destruct s; try exact IH. destruct (name_eqb l l0); [intros [= ->]; reflexivity | exact IH].
Qed.
Lemma plug_goto n ks l st : plug n ks (run_block (EX n) None [SGoto l] st) = plug n ks (Ok (FGoto l), st).
Proof. reflexivity. Qed.
Lemma plug_seq_goto n ks l ss r st :
  after l ss = Some r -> plug n (KSeq ss :: ks) (Ok (FGoto l), st) = plug n ks (run_block (EX n) None r st).
Proof. intros H. cbn [plug kstep]. now rewrite (run_after _ _ _ _ _ H). Qed.
Lemma plug_label n ks l r st :
  plug n ks (run_block (EX n) None (SLabel l :: r) st) = plug n ks (run_block (EX n) None r st).
Proof. reflexivity. Qed.
Ltac jump :=
  rewrite plug_goto; repeat rewrite plug_pop; erewrite plug_seq_goto; [ | vm_compute; reflexivity ].

Lemma ex_copy n l e st st1 st2 st3 s d :
  EV n e st = (Ok (VLst s), st1) -> x_read (EV n) l st1 = (Ok (VLst d), st2) ->
  x_assign (EV n) l (VLst (firstn (length d) s ++ skipn (length s) d)) st2 = (Ok tt, st3) ->
  EX n (SCopy l e) st = (Ok FNext, st3).
Proof. intros H1 H2 H3. cbn [exec]. unfold xbind. rewrite H1. cbn [v_elems]. unfold xlift. rewrite H2. cbn [v_elems]. now rewrite H3. Qed.
Lemma copy_all {A} (s d : list A) : length s = length d -> firstn (length d) s ++ skipn (length s) d = s.
Proof. intros H. rewrite <- H, firstn_all, H, skipn_all. apply app_nil_r. Qed.

Lemma ex_assign44 n l1 l2 l3 l4 e1 e2 e3 e4 st v1 v2 v3 v4 a1 a2 a3 a4 b1 b2 b3 b4 :
  EV n e1 st = (Ok v1, a1) -> EV n e2 a1 = (Ok v2, a2) ->
  EV n e3 a2 = (Ok v3, a3) -> EV n e4 a3 = (Ok v4, a4) ->
  x_assign (EV n) l1 v1 a4 = (Ok tt, b1) -> x_assign (EV n) l2 v2 b1 = (Ok tt, b2) ->
  x_assign (EV n) l3 v3 b2 = (Ok tt, b3) -> x_assign (EV n) l4 v4 b3 = (Ok tt, b4) ->
  EX n (SAssign [l1; l2; l3; l4] [e1; e2; e3; e4]) st = (Ok FNext, b4).
Proof.
  intros H1 H2 H3 H4 G1 G2 G3 G4. cbn [exec x_map]. unfold xbind.
  rewrite H1, H2, H3, H4. unfold xret. cbn [spread assign_all]. unfold xbind.
  replace (match v1 with VTup _ => [v1; v2; v3; v4] | _ => [v1; v2; v3; v4] end)
    with [v1; v2; v3; v4] by now destruct v1.
  now rewrite G1, G2, G3, G4.
Qed.
Ltac assign44 := erewrite plug_step; [ | eapply ex_assign44; [ev | ev | ev | ev | asg | asg | asg | asg] ].

(* dfs/utils.go:97-119; logop/forallguarded.go:67-89 has the same text *)
Ltac valid_node fn nd :=
  func fn; stp; unfold validateNode;
  destruct (IsLeaf nd); [sts; reflexivity|]; stp; stp; orbs;
  match goal with |- context [if ?b then _ else _] => destruct b eqn:?E end; [sts; reflexivity|]; cbv iota; stp; stp; orbs;
  match goal with |- context [if ?b then _ else _] => destruct b eqn:?E end; [sts; rewrite sapp_nil_r; reflexivity|]; cbv iota; stp; stp; orbs;
  match goal with |- context [if ?b then _ else _] => destruct b eqn:?E end; [sts; rewrite sapp_nil_r; reflexivity|]; sts; reflexivity.
Lemma go_validateNode n h nd d k :
  (2 <= n)%nat ->
  gocall n "dfs.validateNode" [v_node nd; VInt (Z.of_nat d); VInt (Z.of_nat k)] h
  = (Ok [v_err (validateNode nd d k)], h).
Proof. valid_node src_dfs_validateNode nd. Qed.
Global Hint Resolve go_validateNode : gocall.

Lemma rfind_valid d k (r : string -> list val) l : forall i,
  rfind (fun _ nd => option_map r (validateNode nd d k)) i l = option_map r (validateNodes l d k).
Proof.
  induction l as [|nd l IH]; intros i; [reflexivity|]. cbn [rfind validateNodes].
  destruct (validateNode nd d k); [reflexivity | apply IH].
Qed.

(* dfs/utils.go:11-93 *)
Definition v_walk (w : walkInfo) : val :=
  VStc "struct" [("prev", VInt (wprev w)); ("visited", VBool (wvisited w))].
Definition v_walks (l : list walkInfo) : val := VLst (map v_walk l).
Definition v_consts (l : list QConst) : val := VLst (map v_const l).

(* The variables of the loop that the model leaves out: pp, zp, op, tmp. *)
Definition rest : Type := Z * Z * Z * list Z.
Definition rest_turn (nodes : list node) (w : lwalk) (r : rest) : rest :=
  let '(pp, zp, op, tmp) := r in
  let cp := lw_cp w in
  let nd := at_ nodes cp in
  if wvisited (wat (lw_walk w) cp) then
    if IsLeaf nd then r
    else if negb (wvisited (wat (lw_walk w) (zChild nd))) then (cp, zChild nd, op, tmp)
    else if negb (wvisited (wat (lw_walk w) (oChild nd))) then (cp, zChild nd, oChild nd, tmp)
    else (pp, zChild nd, oChild nd, tmp)
  else if IsLeaf nd then (pp, zp, op, lw_cv w) else r.
Definition dfs_turn (nodes : list node) (p : lwalk * rest) : turn (lwalk * rest) :=
  match lw_step nodes (fst p) with
  | Ok (inl w) => TGo (w, rest_turn nodes (fst p) (snd p))
  | Ok (inr w) => TBreak (w, rest_turn nodes (fst p) (snd p))
  | _ => TStop Panic p
  end.
Lemma dfs_wrun nodes : forall fuel w r w',
  lw_loop fuel nodes w = Ok w' -> exists r', wrun (fun _ => true) (dfs_turn nodes) fuel (w, r) = WEnd (w', r').
Proof.
  induction fuel as [|fuel IH]; intros w r w'; cbn [lw_loop wrun]; [discriminate|].
  unfold dfs_turn at 1. cbn [fst snd]. destruct (lw_step nodes w) as [[w1|w1]| | |]; cbn [rbind]; try discriminate.
  - apply IH.
  - intros [= ->]. eauto.
Qed.
Lemma lw_loop_more nodes : forall fuel fuel' w, (fuel <= fuel')%nat ->
  lw_loop fuel nodes w <> Hang -> lw_loop fuel' nodes w = lw_loop fuel nodes w.
Proof.
  induction fuel as [|fuel IH]; intros [|fuel'] w Hf H; try lia; [now destruct H..|].
  cbn [lw_loop] in *. destruct (lw_step nodes w) as [[w'|w']| | |]; try reflexivity.
  cbn [rbind] in *. apply IH; [lia | exact H].
Qed.

Lemma idx_walks w z : below_len w z -> v_index (v_walks w) (VInt z) = Ok (v_walk (wat w z)).
Proof. intros H. unfold v_walks, v_index. now rewrite sget_map, sget_wat. Qed.
Lemma set_idx_walks w z x : below_len w z -> v_set_index (v_walks w) (VInt z) (v_walk x) = Ok (v_walks (list_set w (Z.to_nat z) x)).
Proof. intros H. unfold v_walks, v_set_index. rewrite (sset_map v_walk). now rewrite sset_ok. Qed.
Lemma ex_if_panic n c t e st st1 : EV n c (push [] st) = (Panic, st1) -> EX n (SIf [] c t e) st = (Panic, pop st1).
Proof.
  intros H. cbn [exec]. unfold x_scope. cbn [run_block]. unfold xbind, xret, push in *. now rewrite H.
Qed.
Lemma v_make_rep (inj : Z -> val) z k : v_make (inj z) (VInt (Z.of_nat k)) = Ok (VLst (map inj (repeat z k))).
Proof.
  cbn [v_make]. replace (Z.of_nat k <? 0) with false by lia. now rewrite Nat2Z.id, map_rep.
Qed.

Definition leafs_say (h : heap) (p : res (list val) * heap) (r : res (list QConst * list QConst)) : Prop :=
  match r with
  | Ok (a, b) => p = (Ok [v_consts a; v_consts b; VNil], h)
  | Err e => p = (Ok [VLst []; VLst []; VErr e []], h)
  | Panic => fst p = Panic
  | Hang => False
  end.
Lemma go_leafs n h d nodes :
  (3 * length nodes + 5 <= n)%nat ->
  leafs_say h (gocall n "dfs.leafsAsConsts" [VInt (Z.of_nat d); v_nodes nodes] h) (leafsAsConsts d nodes).
Proof.
  func src_dfs_leafsAsConsts.
  find_idx (fun (i : Z) (nd : node) => option_map (fun e => [VLst []; VLst []; VErr e []]) (validateNode nd d (length nodes))).
  2:{ stp. destruct (validateNode a d (length nodes)); sts; reflexivity. }
  rewrite rfind_valid. unfold leafsAsConsts.
  destruct (validateNodes nodes d (length nodes)) as [e|] eqn:V; cbn [option_map].
  { sts. reflexivity. }
  stp. stp. stp. stp.
  pose proof (v_make_rep VInt 0 d) as Em. fold (v_feats (repeat 0 d)) in Em.
  assert (Ew : v_make (v_walk (mkWalk 0 false)) (VInt (Z.of_nat (length nodes))) = Ok (v_walks (repeat (mkWalk 0 false) (length nodes)))).
  { cbn [v_make v_walk]. replace (Z.of_nat (length nodes) <? 0) with false by lia. rewrite Nat2Z.id. unfold v_walks. now rewrite map_rep. }
  stp. assign44. stp.
  set (w0 := mkLwalk (repeat 0 d) (repeat (mkWalk 0 false) (length nodes)) 0 [] []).
  set (init := (w0, (0, 0, 0, @nil Z)) : lwalk * rest).
  set (P := fun p : lwalk * rest => if (length nodes =? 0)%nat then p = init else exists st, lw_inv d nodes (fst p) st).
  while_inv (fun p : lwalk * rest =>
      [("cv"%string, v_feats (lw_cv (fst p))); ("walk"%string, v_walks (lw_walk (fst p))); ("cp"%string, VInt (lw_cp (fst p)));
       ("pleaf"%string, v_consts (lw_pos (fst p))); ("nleaf"%string, v_consts (lw_neg (fst p)));
       ("pp"%string, VInt (fst (fst (fst (snd p))))); ("zp"%string, VInt (snd (fst (fst (snd p)))));
       ("op"%string, VInt (snd (fst (snd p)))); ("tmp"%string, v_feats (snd (snd p)))])
    (fun p : lwalk * rest => h) (fun p : lwalk * rest => true) (dfs_turn nodes)
    from init keeping P.
  - destruct (length nodes =? 0)%nat eqn:E.
    { destruct nodes as [|]; [|discriminate]. cbn [leafs_fuel length]. destruct n as [|n]; [exfalso; cbn in H; lia|]. reflexivity. }
    apply Nat.eqb_neq in E. apply validateNodes_iff in V.
    destruct (lw_loop_total d nodes (leafs_fuel nodes) w0 [] V) as (w' & st' & Ew' & _).
    { split; [apply repeat_length|]. split; [|split; constructor]. apply walking_init. intros ->. now apply E. }
    { unfold cost, seen, w0. cbn [lw_walk lw_cp]. rewrite wat_repeat, unvisited_repeat. unfold leafs_fuel. simpl. lia. }
    rewrite Ew'. cbn [rbind].
    assert (Em' : lw_loop n nodes w0 = Ok w').
    { rewrite <- Ew'. apply lw_loop_more; [unfold leafs_fuel; lia | congruence]. }
    destruct (dfs_wrun nodes n w0 (0, 0, 0, []) w' Em') as (r' & Er). change (wrun (fun _ => true) (dfs_turn nodes) n init = WEnd (w', r')) in Er.
    rewrite Er. cbn [fst snd]. red_env. sts. reflexivity.
  - unfold P. destruct (length nodes =? 0)%nat eqn:E; [reflexivity|]. apply Nat.eqb_neq in E.
    exists []. cbn [fst init w0]. split; [apply repeat_length|]. split; [|split; constructor].
    apply walking_init. intros ->. now apply E.
  - apply validateNodes_iff in V. unfold P in Hs. destruct (length nodes =? 0)%nat eqn:E0.
    { destruct nodes as [|]; [|discriminate]. subst s. cbn [dfs_turn]. split; [|exact Logic.I].
      erewrite plug_panic; [|eapply ex_if_panic; eapply ev_sel_panic; eapply ev_idx_panic; [red_env; ev | ev | reflexivity]].
      sts. reflexivity. }
    destruct s as [w [[[pp zp] op] tmp]]. destruct Hs as (st & I). cbn [fst snd] in *. clear Hc init.
    pose proof (lw_step_total d nodes w st V I) as T.
    destruct w as [cv wk cp pos neg]. destruct I as (Lc & W & HP & HN). cbn [lw_cv lw_walk lw_cp lw_pos lw_neg] in *.
    pose proof W as [L R _ _]. inversion R as [|? ? Rc Rs]; subst. clear R.
    assert (Rw : forall x, below_len nodes x -> below_len wk x) by (intros x; unfold below_len; now rewrite L).
    assert (In : v_index (v_nodes nodes) (VInt cp) = Ok (v_node (at_ nodes cp))) by now apply idx_node, sget_at.
    assert (Iw : v_index (v_walks wk) (VInt cp) = Ok (v_walk (wat wk cp))) by now apply idx_walks, Rw.
    assert (Keep : forall w' r, lw_step nodes (mkLwalk cv wk cp pos neg) = Ok (inl w') -> P (w', r)).
    { intros w' r E. unfold P. cbv iota. cbn [fst]. rewrite E in T. destruct T as [(s' & st' & [= <-] & I & _)|T]; [eauto | discriminate]. }
    unfold dfs_turn, rest_turn. cbn [fst snd lw_cv lw_walk lw_cp lw_pos lw_neg]. clear T.
    unfold lw_step in *. cbn [lw_cv lw_walk lw_cp lw_pos lw_neg] in *.
    rewrite sget_wat in * by (apply Rw; auto). cbn [rbind] in *.
    destruct (wvisited (wat wk cp)) eqn:S.
    2:{ pose proof (set_idx_walks wk cp (mkWalk (wprev (wat wk cp)) true) (Rw _ Rc)) as Sw.
        rewrite sset_ok in * by (now apply Rw). cbn [rbind] in *. rewrite sget_at in * by auto. cbn [rbind] in *.
        destruct (IsLeaf (at_ nodes cp)) eqn:F; cbn [negb] in *.
        2:{ split; [now apply Keep|]. stp. cbn [v_walk]. rewrite S. cbv iota. stp. stp. stp. rewrite F. sts. endbody. }
        assert (Ec : firstn (length (map VInt (repeat 0 (length cv)))) (map VInt cv) ++ skipn (length (map VInt cv)) (map VInt (repeat 0 (length cv)))
                     = map VInt cv) by (apply copy_all; now rewrite !map_length, repeat_length).
        destruct (nValue (at_ nodes cp)) eqn:NV.
        - split; [now apply Keep|]. stp. rewrite S. cbv iota. stp. stp. stp. rewrite F. cbn [negb]. cbv iota.
          stp. stp. erewrite plug_step; [|eapply ex_copy; [ev | rd | rewrite Ec; asg]]. stp. rewrite NV. cbv iota. sts.
          unfold v_consts. cbn [fst snd lw_pos]. rewrite map_app. endbody.
        - split; [now apply Keep|]. stp. rewrite S. cbv iota. stp. stp. stp. rewrite F. cbn [negb]. cbv iota.
          stp. stp. erewrite plug_step; [|eapply ex_copy; [ev | rd | rewrite Ec; asg]]. stp. rewrite NV. cbv iota. sts.
          unfold v_consts. cbn [fst snd lw_neg]. rewrite map_app. endbody. }
    rewrite sget_at in * by auto. cbn [rbind] in *.
    assert (Up : cp =? 0 = false ->
       let p := wprev (wat wk cp) in
       v_index (v_nodes nodes) (VInt p) = Ok (v_node (at_ nodes p)) /\
       v_set_index (v_feats cv) (VInt (nFeat (at_ nodes p))) (VInt 0) = Ok (v_feats (list_set cv (Z.to_nat (nFeat (at_ nodes p))) 0)) /\
       lw_backup nodes (mkLwalk cv wk cp pos neg)
       = Ok (inl (mkLwalk (list_set cv (Z.to_nat (nFeat (at_ nodes p))) 0) wk p pos neg))).
    { intros Z0. cbv zeta. destruct (walk_up nodes wk cp st W S) as (p & st' & -> & P1 & P2 & P3 & P4 & P5); [lia|].
      rewrite P1. destruct (valid_at _ _ _ p V) as [X|(X & _)]; [congruence|].
      split; [now apply idx_node, sget_at|]. split; [now apply set_idx_feats|].
      unfold lw_backup. cbn [lw_cv lw_walk lw_cp lw_pos lw_neg]. rewrite Z0, sget_wat by (apply Rw; auto). cbn [rbind]. rewrite P1.
      rewrite sget_at by auto. cbn [rbind]. now rewrite sset_ok. }
    assert (Root : cp =? 0 = true -> lw_backup nodes (mkLwalk cv wk cp pos neg) = Ok (inr (mkLwalk cv wk cp pos neg)))
      by (intros Z0; unfold lw_backup; cbn [lw_cp]; now rewrite Z0).
    destruct (IsLeaf (at_ nodes cp)) eqn:F.
    { destruct (cp =? 0) eqn:Z0.
      - rewrite (Root eq_refl). stp. rewrite S. cbv iota. stp. rewrite F. cbv iota. jump. stp. rewrite Z0. cbv iota. sts. reflexivity.
      - destruct (Up eq_refl) as (U1 & U2 & U3). cbv zeta in *. rewrite U3 in *. split; [now apply Keep|].
        stp. rewrite S. cbv iota. stp. rewrite F. cbv iota. jump. stp. rewrite Z0. cbv iota. sts. endbody. }
    destruct (valid_at _ _ _ cp V) as [X|(X1 & X2 & X3)]; [congruence|].
    set (nd := at_ nodes cp) in *.
    assert (Iz : v_index (v_walks wk) (VInt (zChild nd)) = Ok (v_walk (wat wk (zChild nd)))) by now apply idx_walks, Rw.
    assert (Io : v_index (v_walks wk) (VInt (oChild nd)) = Ok (v_walk (wat wk (oChild nd)))) by now apply idx_walks, Rw.
    pose proof (set_idx_feats cv (nFeat nd) 1 X1) as S1. pose proof (set_idx_feats cv (nFeat nd) 2 X1) as S2.
    pose proof (fun b => set_idx_walks wk (zChild nd) (mkWalk cp b) (Rw _ X2)) as Sz.
    pose proof (fun b => set_idx_walks wk (oChild nd) (mkWalk cp b) (Rw _ X3)) as So.
    assert (Down : forall c v, below_len nodes c -> lw_descend (mkLwalk cv wk cp pos neg) nd c v
       = Ok (inl (mkLwalk (list_set cv (Z.to_nat (nFeat nd)) v) (list_set wk (Z.to_nat c) (mkWalk cp (wvisited (wat wk c)))) c pos neg))).
    { intros c v Hc. unfold lw_descend. cbn [lw_cv lw_walk lw_cp lw_pos lw_neg]. rewrite sset_ok by exact X1. cbn [rbind].
      rewrite sget_wat by now apply Rw. cbn [rbind]. now rewrite sset_ok by now apply Rw. }
    rewrite sget_wat in * by (apply Rw; exact X2). cbn [rbind] in *.
    destruct (wvisited (wat wk (zChild nd))) eqn:SZ; cbn [negb] in *.
    2:{ rewrite Down in * by exact X2. split; [now apply Keep|]. rewrite SZ.
        stp. rewrite S. cbv iota. stp. rewrite F. cbv iota. stp. stp. stp. rewrite SZ. cbn [negb]. cbv iota.
        pose proof (Sz (wvisited (wat wk (zChild nd)))) as Sz'. clear Sz So.
        sts. rewrite SZ. endbody. }
    rewrite sget_wat in * by (apply Rw; exact X3). cbn [rbind] in *.
    destruct (wvisited (wat wk (oChild nd))) eqn:SO; cbn [negb] in *.
    2:{ rewrite Down in * by exact X3. split; [now apply Keep|]. rewrite SO.
        stp. rewrite S. cbv iota. stp. rewrite F. cbv iota. stp. stp. stp. rewrite SZ. cbn [negb]. cbv iota.
        stp. stp. stp. rewrite SO. cbn [negb]. cbv iota.
        pose proof (So (wvisited (wat wk (oChild nd)))) as So'. clear Sz So.
        sts. rewrite SO. endbody. }
    clear Sz So. destruct (cp =? 0) eqn:Z0.
    + rewrite (Root eq_refl).
      stp. rewrite S. cbv iota. stp. rewrite F. cbv iota. stp. stp. stp. rewrite SZ. cbn [negb]. cbv iota.
      stp. stp. stp. rewrite SO. cbn [negb]. cbv iota. stp. rewrite plug_label. stp. rewrite Z0. cbv iota. sts. reflexivity.
    + destruct (Up eq_refl) as (U1 & U2 & U3). cbv zeta in *. rewrite U3 in *. split; [now apply Keep|].
      stp. rewrite S. cbv iota. stp. rewrite F. cbv iota. stp. stp. stp. rewrite SZ. cbn [negb]. cbv iota.
      stp. stp. stp. rewrite SO. cbn [negb]. cbv iota. stp. rewrite plug_label. stp. rewrite Z0. cbv iota. sts. endbody.
Qed.

(* A search through three slices at once. *)
Lemma rfind_three {B} (t : Z -> Z -> Z -> bool) (r : B) (l1 l2 l3 : list FeatV) :
  length l1 = length l2 -> length l1 = length l3 ->
  rfind (fun i ft => if t ft (vget l2 i) (vget l3 i) then Some r else None) 0 l1
  = if existsb (fun p => t (fst p) (fst (snd p)) (snd (snd p))) (combine l1 (combine l2 l3)) then Some r else None.
Proof.
  intros H2 H3.
  assert (E : forall l1 l2 l3 p2 p3, length l1 = length l2 -> length l1 = length l3 -> length p2 = length p3 ->
    rfind (fun i ft => if t ft (vget (p2 ++ l2) i) (vget (p3 ++ l3) i) then Some r else None) (Z.of_nat (length p2)) l1
    = if existsb (fun p => t (fst p) (fst (snd p)) (snd (snd p))) (combine l1 (combine l2 l3)) then Some r else None).
  { clear. induction l1 as [|x m IH]; intros [|y m2] [|z m3] p2 p3 H2 H3 Hp; try discriminate; [reflexivity|].
    cbn [rfind combine existsb fst snd].
    assert (Ey : vget (p2 ++ y :: m2) (Z.of_nat (length p2)) = y) by (unfold vget; rewrite Nat2Z.id; apply nth_middle).
    assert (Ez : vget (p3 ++ z :: m3) (Z.of_nat (length p2)) = z) by (unfold vget; rewrite Hp, Nat2Z.id; apply nth_middle).
    rewrite Ey, Ez. destruct (t x y z); cbn [orb]; [reflexivity|].
    specialize (IH m2 m3 (p2 ++ [y]) (p3 ++ [z])). rewrite !app_length, <- !app_assoc in IH. cbn [length app] in IH.
    replace (Z.of_nat (length p2) + 1) with (Z.of_nat (length p2 + 1)) by lia.
    apply IH; [now injection H2 | now injection H3 | lia]. }
  exact (E l1 l2 l3 [] [] H2 H3 eq_refl).
Qed.

(* dfs/const.go:52-68 *)
Lemma go_leafCompare n h c l1 l2 b :
  (1 <= n)%nat -> leafCompare c l1 l2 = Ok b ->
  gocall n "dfs.leafCompare" [v_const c; v_const l1; v_const l2] h = (Ok [VBool b; VNil], h).
Proof.
  unfold leafCompare. destruct (_ || _) eqn:E; [discriminate|]. apply Bool.orb_false_iff in E.
  rewrite !Bool.negb_false_iff, !Nat.eqb_eq in E. destruct E as [L1 L2]. intros Hn [= <-]. revert Hn.
  func src_dfs_leafCompare. stp. rewrite <- L1, <- L2, Z.eqb_refl. cbn [negb]. cbv iota. stp.
  set (t := fun x y z => negb (x =? BOT) && negb (y =? BOT) && negb (z =? BOT) && negb (y =? z)).
  find_idx (fun (i : Z) (ft : FeatV) => if t ft (vget (cVal l1) i) (vget (cVal l2) i) then Some [VBool true; VNil] else None).
  - rewrite rfind_three by assumption. change (existsb _ (combine (cVal c) (combine (cVal l1) (cVal l2))))
      with (existsb (fun p => t (fst p) (fst (snd p)) (snd (snd p))) (combine (cVal c) (combine (cVal l1) (cVal l2)))).
    destruct (existsb _ _); sts; reflexivity.
  - assert (Hl : (Z.to_nat i < length (cVal c))%nat) by (apply nth_error_Some; congruence).
    unfold t, BOT. stp.
    destruct (a =? 0), (vget (cVal l1) i =? 0), (vget (cVal l2) i =? 0), (vget (cVal l1) i =? vget (cVal l2) i);
      cbn [negb andb]; sts; reflexivity.
Qed.

Lemma ex_assign3_panic n l1 l2 l3 e st st1 :
  EV n e st = (Panic, st1) -> EX n (SAssign [l1; l2; l3] [e]) st = (Panic, st1).
Proof. intros H. cbn [exec x_map]. unfold xbind. now rewrite H. Qed.

(* The loops over all pairs of leafs. *)
Definition leaf_cmp (c p q : QConst) : bool :=
  match leafCompare c p q with Ok b => b | _ => false end.
Lemma leaf_cmp_ok c p q d :
  length (cVal c) = d -> length (cVal p) = d -> length (cVal q) = d -> leafCompare c p q = Ok (leaf_cmp c p q).
Proof.
  intros H1 H2 H3. unfold leaf_cmp, leafCompare. rewrite H1, H2, H3, Nat.eqb_refl. reflexivity.
Qed.
Lemma dfs_const_loop_ok c d l :
  length (cVal c) = d -> Forall (fun pq => length (cVal (fst pq)) = d /\ length (cVal (snd pq)) = d) l ->
  dfs_const_loop c l = Ok (forallb (fun pq => leaf_cmp c (fst pq) (snd pq)) l).
Proof.
  intros Hc H. induction H as [|[p q] l [Hp Hq] H IH]; [reflexivity|]. cbn [dfs_const_loop forallb fst snd] in *.
  rewrite (leaf_cmp_ok c p q d Hc Hp Hq). cbn [rbind]. destruct (leaf_cmp c p q); [exact IH | reflexivity].
Qed.
Lemma rfind_pairs {A B R} (t : A -> B -> bool) (r : R) (Q : list B) (P : list A) : forall i,
  rfind (fun _ p => rfind (fun _ q => if t p q then None else Some r) 0 Q) i P
  = if forallb (fun pq => t (fst pq) (snd pq)) (list_prod P Q) then None else Some r.
Proof.
  induction P as [|p P IH]; intros i; [reflexivity|]. cbn [rfind list_prod]. rewrite forallb_app, IH.
  assert (E : forall j, rfind (fun _ q => if t p q then None else Some r) j Q
              = if forallb (fun pq => t (fst pq) (snd pq)) (map (fun y => (p, y)) Q) then None else Some r).
  { clear. induction Q as [|q Q IH]; intros j; [reflexivity|]. cbn [rfind map forallb fst snd].
    destruct (t p q); [apply IH | reflexivity]. }
  rewrite E. now destruct (forallb _ (map _ Q)).
Qed.
Lemma pairs_len d (P Q : list QConst) :
  Forall (fun c => length (cVal c) = d) P -> Forall (fun c => length (cVal c) = d) Q ->
  Forall (fun pq => length (cVal (fst pq)) = d /\ length (cVal (snd pq)) = d) (list_prod P Q).
Proof.
  intros HP HQ. rewrite Forall_forall in *. intros [p q] H. apply in_prod_iff in H. cbn [fst snd]. split; [now apply HP | now apply HQ].
Qed.

Definition witness (d : nat) (v : string) (p q : QConst) : sclause :=
  match notAWitnessClause d v p q with Ok cl => cl | _ => [] end.
Lemma witness_ok d v p q :
  length (cVal p) = d -> length (cVal q) = d -> notAWitnessClause d v p q = Ok (witness d v p q).
Proof. intros H2 H3. unfold witness, notAWitnessClause. rewrite H2, H3, Nat.eqb_refl. reflexivity. Qed.
Lemma dfs_var_loop_ok d v l :
  Forall (fun pq => length (cVal (fst pq)) = d /\ length (cVal (snd pq)) = d) l ->
  dfs_var_loop d v l = Ok (map (fun pq => witness d v (fst pq) (snd pq)) l).
Proof.
  intros H. induction H as [|[p q] l [Hp Hq] H IH]; [reflexivity|]. cbn [dfs_var_loop map fst snd] in *.
  rewrite (witness_ok d v p q Hp Hq). cbn [rbind]. rewrite IH. reflexivity.
Qed.
Lemma zero_len {A} (l : list A) : (Z.of_nat (length l) =? 0) = (length l =? 0)%nat.
Proof. destruct l; reflexivity. Qed.
Lemma leafs_lens d nodes P Q : leafsAsConsts d nodes = Ok (P, Q) ->
  Forall (fun c => length (cVal c) = d) P /\ Forall (fun c => length (cVal c) = d) Q.
Proof.
  intros E. destruct nodes as [|n0 ns] eqn:En; [discriminate|]. rewrite <- En in *.
  destruct (leafs_total d nodes) as [(e & E')|(p & q & E' & A & B)]; [congruence..|].
  rewrite E' in E. injection E as -> ->. now split.
Qed.
(* The call of leafsAsConsts and the checks after it. *)
Ltac leafs P Q :=
  match goal with |- context [leafsAsConsts ?d ?nodes] =>
    let H := fresh in let LL := fresh in let e := fresh in let Eg := fresh in let r := fresh in let h' := fresh in
    match goal with |- context [mkMs _ _ ?h] =>
    match goal with |- context [run_block (EX ?n) _ _ _] =>
      pose proof (go_leafs n h d nodes ltac:(lia)) as H end end;
    pose proof (leafs_lens d nodes) as LL;
    destruct (leafsAsConsts d nodes) as [[P Q]|e| |]; cbn [leafs_say rbind] in *;
      [ | sts; reflexivity
        | match type of H with fst ?c = _ => destruct c as [r h'] eqn:Eg end; cbn [fst] in H; subst r;
          erewrite plug_panic; [|eapply ex_assign3_panic; eapply ev_call_panic; [evs | exact Eg]]; sts; reflexivity
        | contradiction ];
    destruct (LL _ _ eq_refl) as (LP & LQ); clear LL;
    stp; stp; stp; rewrite !zero_len;
    repeat match goal with |- context [if ?a then ?b else false] => change (if a then b else false) with (a && b) end;
    destruct ((length P =? 0)%nat && (length Q =? 0)%nat); [sts; reflexivity|]; stp
  end.

Lemma mapi_single {A B} (f : A -> B) l : concat (mapi (fun _ q => [f q]) l) = map f l.
Proof. unfold mapi. generalize 0 as i. induction l as [|a l IH]; intros i; [reflexivity|]. cbn. now rewrite IH. Qed.

Section Dfs.
Variables (s : scoper) (M : model) (g : heap) (vm : varman).
Notation ENC n f a := (gocall n f [v_atom a; VPtr 0] (hc s M g vm)).
Notation C := (mkCtx s vm M).
Notation HC := (hc s M g).
Notation CL x := (fun p : list clause * varman => [(x%string, v_clauses (fst p))]).
Notation HL := (fun p : list clause * varman => HC (snd p)).

(* dfs/var.go:49-71 *)
Lemma go_notAWitnessClause n vm0 v l1 l2 cl :
  (3 <= n)%nat -> (Dim M + 2 <= n)%nat -> notAWitnessClause (Dim M) v l1 l2 = Ok cl ->
  gocall n "dfs.notAWitnessClause" [VStr v; v_const l1; v_const l2; VPtr 0] (HC vm0)
  = (Ok [v_clause (fst (alloc_clause vm0 cl)); VNil], HC (snd (alloc_clause vm0 cl))).
Proof.
  unfold notAWitnessClause. destruct (_ || _) eqn:E; [discriminate|]. apply Bool.orb_false_iff in E.
  rewrite !Bool.negb_false_iff, !Nat.eqb_eq in E. destruct E as [L1 L2]. intros Hn Hd [= <-]. revert Hn.
  func src_dfs_notAWitnessClause. stp. stp. stp. rewrite <- L1, <- L2, Z.eqb_refl. cbn [negb]. cbv iota. stp.
  match goal with |- context [flat_map ?f _] => set (lit := f) end.
  for_new "i" (fun p : clause * varman => [("clause"%string, v_clause (fst p))]) (fun p : clause * varman => HC (snd p))
    (fun i => addl (lit i)) from (@nil Z, vm0) to (Z.of_nat (Dim M)).
  - sts. rewrite !(addl_fold lit), !addl_start. reflexivity.
  - unfold lit, BOT. stp.
    destruct (vget (cVal l1) i =? 0), (vget (cVal l2) i =? 0), (vget (cVal l1) i =? vget (cVal l2) i);
      cbn [negb andb]; rewrite ?addl_nil; sts; endbody.
Qed.

Lemma go_DfsC n c :
  (levels s + 5 <= n)%nat -> (3 * length (Nodes M) + 6 <= n)%nat ->
  says g (ENC n "dfs.Const.Encoding" (DfsC c)) (enc_atom (DfsC c) C).
Proof.
  enter src_dfs_Const_Encoding. stp. const c k.
  destruct (ValidateConstsDim (Dim M) [k]) as [e|] eqn:V; [sts; reflexivity|].
  pose proof (valid_lens _ _ k V ltac:(now left)) as L.
  cbn [guard]. stp. leafs P Q.
  rewrite (dfs_const_loop_ok k (Dim M)) by (try assumption; now apply pairs_len). cbn [rbool rbind].
  find_idx (fun (_ : Z) (p : QConst) =>
    rfind (fun (_ : Z) (q : QConst) => if leaf_cmp k p q then None else Some [v_cnf FalseCNF; VNil]) 0 Q).
  - rewrite rfind_pairs. destruct (forallb _ _); sts; reflexivity.
  - find_idx (fun (_ : Z) (q : QConst) => if leaf_cmp k a q then None else Some [v_cnf FalseCNF; VNil]).
    + destruct (rfind _ _ _); sts; reflexivity.
    + rewrite Forall_forall in LP, LQ. pose proof (LP _ (nth_error_In _ _ Hn)) as La. pose proof (LQ _ (nth_error_In _ _ Hn0)) as Lb.
      pose proof (go_leafCompare n (HC vm) k a a0 _ ltac:(lia) (leaf_cmp_ok k a a0 _ L La Lb)) as Ec.
      stp. stp. stp. destruct (leaf_cmp k a a0); sts; reflexivity.
Qed.

Lemma go_DfsV n v :
  (levels s + 5 <= n)%nat -> (Dim M + 4 <= n)%nat -> (3 * length (Nodes M) + 6 <= n)%nat ->
  says g (ENC n "dfs.Var.Encoding" (DfsV v)) (enc_atom (DfsV v) C).
Proof.
  enter src_dfs_Var_Encoding. stp. scopevar v w. cbn [rbind]. stp. leafs P Q.
  rewrite (dfs_var_loop_ok (Dim M)) by now apply pairs_len. cbn [rbind].
  stp.
  range_idx (CL "clauses") HL (fun (_ : Z) (p : QConst) => addp (map (fun q => witness (Dim M) w p q) Q)) from (@nil clause, vm).
  - rewrite (addp_ifold (fun (_ : Z) (p : QConst) => map (fun q => witness (Dim M) w p q) Q)).
    sts. apply says_from. rewrite addp_start. do 2 f_equal. clear. unfold mapi. generalize 0 as i.
    induction P as [|p P IH]; intros i; [reflexivity|]. cbn [list_prod mapi_from concat]. rewrite map_app, map_map. cbn [fst snd].
    now rewrite (IH (i + 1)).
  - range_idx (CL "clauses") HL (fun (_ : Z) (q : QConst) => addp [witness (Dim M) w a q]) from s0.
    + rewrite (addp_ifold (fun (_ : Z) (q : QConst) => [witness (Dim M) w a q])), (mapi_single (fun q => witness (Dim M) w a q)).
      sts. endbody.
    + rewrite Forall_forall in LP, LQ. pose proof (LP _ (nth_error_In _ _ Hn)) as La. pose proof (LQ _ (nth_error_In _ _ Hn0)) as Lb.
      pose proof (fun vm0 => go_notAWitnessClause n vm0 w a a0 _ ltac:(lia) ltac:(lia) (witness_ok (Dim M) w a a0 La Lb)) as Ec.
      sts. unfold addp. rewrite alloc_one. unfold v_clauses. cbn [fst snd]. rewrite map_app. endbody.
Qed.
End Dfs.
