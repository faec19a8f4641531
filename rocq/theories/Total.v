(* The loops over a model's nodes on any list of nodes: which of them end,
   which can panic.  In particular the fuel of the model is enough. *)
From Coq Require ListDec.
From Verif Require Import GoBase Query Walk Spec TreeLemmas WalkLemmas.
Local Open Scope Z_scope.
Local Open Scope list_scope.

(* ---- what validateNodes checks ---- *)

Definition at_ (l : list node) (x : Z) : node := nth (Z.to_nat x) l (mkNode false 0 (-1) (-1)).
Definition below_len {A} (l : list A) (x : Z) : Prop := 0 <= x < Z.of_nat (length l).
Definition node_valid (dim nlen : nat) (n : node) : Prop :=
  IsLeaf n = true \/
  (0 <= nFeat n < Z.of_nat dim /\ 0 <= zChild n < Z.of_nat nlen /\ 0 <= oChild n < Z.of_nat nlen).

Lemma out_false : forall i n, (i <? 0) || (n <=? i) = false -> 0 <= i < n.
Proof. intros i n H. apply orb_false_iff in H as [A B]. apply Z.ltb_ge in A. apply Z.leb_gt in B. lia. Qed.
Lemma in_false : forall i n, 0 <= i < n -> (i <? 0) || (n <=? i) = false.
Proof. intros i n H. apply orb_false_iff. split; [apply Z.ltb_ge|apply Z.leb_gt]; lia. Qed.

Lemma validateNode_iff : forall n dim nlen, validateNode n dim nlen = None <-> node_valid dim nlen n.
Proof.
  intros n dim nlen. unfold validateNode, node_valid. destruct (IsLeaf n); [tauto|].
  destruct ((nFeat n <? 0) || _) eqn:E1.
  - split; [discriminate|]. intros [H|(H & _)]; [discriminate|]. rewrite in_false in E1 by auto. discriminate.
  - apply out_false in E1. destruct ((zChild n <? 0) || _) eqn:E2.
    + split; [discriminate|]. intros [H|(_ & H & _)]; [discriminate|]. rewrite in_false in E2 by auto. discriminate.
    + apply out_false in E2. destruct ((oChild n <? 0) || _) eqn:E3.
      * split; [discriminate|]. intros [H|(_ & _ & H)]; [discriminate|]. rewrite in_false in E3 by auto. discriminate.
      * apply out_false in E3. split; auto.
Qed.
Lemma validateNodes_iff : forall l dim nlen, validateNodes l dim nlen = None <-> Forall (node_valid dim nlen) l.
Proof.
  induction l as [|n l IH]; intros dim nlen; simpl; [split; auto|].
  destruct (validateNode n dim nlen) eqn:E.
  - split; [discriminate|]. intros H. inversion H as [|? ? H1 H2]; subst. apply validateNode_iff in H1. congruence.
  - rewrite IH. apply validateNode_iff in E. split; [constructor; auto|]. intros H. now inversion H.
Qed.

Lemma sget_at : forall l x, below_len l x -> sget l x = Ok (at_ l x).
Proof.
  intros l x [H1 H2]. apply sget_ok; auto. unfold at_. apply nth_error_nth'. lia.
Qed.
Lemma valid_at : forall dim nlen l x, Forall (node_valid dim nlen) l -> node_valid dim nlen (at_ l x).
Proof.
  intros dim nlen l x H. unfold at_. destruct (nth_in_or_default (Z.to_nat x) l (mkNode false 0 (-1) (-1))) as [Hin| ->].
  - rewrite Forall_forall in H. auto.
  - left. reflexivity.
Qed.

(* ---- a walk with a parent pointer per node ---- *)

Definition unvisited (w : list walkInfo) : nat := length (filter (fun i => negb (wvisited i)) w).
Definition seen (w : list walkInfo) (x : Z) : bool := wvisited (wat w x).

(* st: the nodes above cp, nearest first; all visited, all with children *)
Fixpoint chain (nodes : list node) (w : list walkInfo) (cp : Z) (st : list Z) : Prop :=
  match st with
  | [] => cp = 0
  | p :: st => wprev (wat w cp) = p /\ seen w p = true /\ IsLeaf (at_ nodes p) = false /\ chain nodes w p st
  end.

Record walking (nodes : list node) (w : list walkInfo) (cp : Z) (st : list Z) : Prop := {
  wk_len : length w = length nodes;
  wk_range : Forall (below_len nodes) (cp :: st);
  wk_nodup : NoDup (cp :: st);
  wk_chain : chain nodes w cp st
}.
Definition cost (w : list walkInfo) (cp : Z) (st : list Z) : nat :=
  3 * unvisited w + length st + (if seen w cp then 2 else 0).

Lemma unvisited_set : forall w n a b, nth_error w n = Some a ->
  (unvisited (list_set w n b) + (if wvisited a then 0 else 1) = unvisited w + (if wvisited b then 0 else 1))%nat.
Proof.
  unfold unvisited. induction w as [|x w IH]; intros [|n] a b H; simpl in *; try discriminate.
  - injection H as ->. destruct (wvisited a), (wvisited b); simpl; lia.
  - specialize (IH n a b H). destruct (wvisited x); simpl; lia.
Qed.
Lemma wat_nth_error : forall w x, below_len w x -> nth_error w (Z.to_nat x) = Some (wat w x).
Proof. intros w x H. unfold wat. apply nth_error_nth'. unfold below_len in H. lia. Qed.

Lemma chain_last : forall nodes w st cp, chain nodes w cp st -> In 0 (cp :: st).
Proof.
  induction st as [|p st IH]; intros cp H; simpl in H.
  - subst. simpl; auto.
  - destruct H as (_ & _ & _ & H). right. auto.
Qed.
Lemma chain_ext : forall nodes w w' st cp,
  (forall x, In x (cp :: st) -> wprev (wat w' x) = wprev (wat w x)) ->
  (forall x, In x st -> seen w' x = seen w x) -> chain nodes w cp st -> chain nodes w' cp st.
Proof.
  induction st as [|p st IH]; intros cp H1 H2 H; simpl in *; auto.
  destruct H as (A & B & C & D). split; [rewrite H1; auto|]. split; [rewrite H2; auto|]. split; auto.
Qed.
Lemma chain_seen : forall nodes w st cp x, chain nodes w cp st -> In x st -> seen w x = true.
Proof.
  induction st as [|p st IH]; intros cp x H Hx; simpl in *; [contradiction|].
  destruct H as (A & B & C & D). destruct Hx as [->|Hx]; eauto.
Qed.

(* marking the current node *)
Lemma walk_mark : forall nodes w cp st, walking nodes w cp st -> seen w cp = false ->
  let w' := list_set w (Z.to_nat cp) (mkWalk (wprev (wat w cp)) true) in
  sset w cp (mkWalk (wprev (wat w cp)) true) = Ok w' /\
  walking nodes w' cp st /\ (cost w' cp st < cost w cp st)%nat /\ (S (unvisited w') = unvisited w)%nat /\ seen w' cp = true.
Proof.
  intros nodes w cp st [L R N C] U. cbv zeta. inversion R as [|? ? Rc Rs]; subst. inversion N as [|? ? Nc Ns]; subst.
  assert (Rw : below_len w cp) by (unfold below_len in *; now rewrite L).
  split; [apply sset_ok; exact Rw|].
  pose proof (unvisited_set w (Z.to_nat cp) (wat w cp) (mkWalk (wprev (wat w cp)) true) (wat_nth_error w cp Rw)) as UV.
  unfold seen in U. rewrite U in UV. cbn [wvisited] in UV.
  assert (S1 : seen (list_set w (Z.to_nat cp) (mkWalk (wprev (wat w cp)) true)) cp = true).
  { unfold seen. rewrite wat_set_same; auto. }
  split; [|split; [|split; [lia|auto]]].
  - split; auto.
    + now rewrite list_set_length.
    + eapply chain_ext; [| |exact C].
      * intros x Hx. destruct (Z.eq_dec cp x) as [<-|Ne].
        -- rewrite wat_set_same; auto.
        -- rewrite wat_set_other; auto; [apply Rc|]. rewrite Forall_forall in R. now apply R.
      * intros x Hx. unfold seen. rewrite wat_set_other; auto; [apply Rc| |].
        -- rewrite Forall_forall in Rs. now apply Rs.
        -- intros ->. contradiction.
  - unfold cost. rewrite S1. unfold seen. rewrite U. lia.
Qed.

(* going down to an unvisited child *)
Lemma walk_down : forall nodes w cp st child, walking nodes w cp st -> seen w cp = true -> IsLeaf (at_ nodes cp) = false ->
  below_len nodes child -> seen w child = false ->
  let w' := list_set w (Z.to_nat child) (mkWalk cp (wvisited (wat w child))) in
  sset w child (mkWalk cp (wvisited (wat w child))) = Ok w' /\
  walking nodes w' child (cp :: st) /\ (cost w' child (cp :: st) < cost w cp st)%nat /\ unvisited w' = unvisited w.
Proof.
  intros nodes w cp st child [L R N C] V F H U. cbv zeta.
  assert (Rw : below_len w child) by (unfold below_len in *; now rewrite L).
  split; [apply sset_ok; exact Rw|].
  pose proof (unvisited_set w (Z.to_nat child) (wat w child) (mkWalk cp (wvisited (wat w child))) (wat_nth_error w child Rw)) as UV.
  cbn [wvisited] in UV.
  assert (NI : ~ In child (cp :: st)).
  { intros [->|Hin]; [congruence|]. rewrite (chain_seen _ _ _ _ _ C Hin) in U. discriminate. }
  assert (SO : forall x, In x (cp :: st) -> wat (list_set w (Z.to_nat child) (mkWalk cp (wvisited (wat w child)))) x = wat w x).
  { intros x Hx. apply wat_set_other; [apply H| |].
    - rewrite Forall_forall in R. now apply R.
    - intros ->. contradiction. }
  assert (SC : seen (list_set w (Z.to_nat child) (mkWalk cp (wvisited (wat w child)))) child = false).
  { unfold seen. rewrite wat_set_same by auto. exact U. }
  split; [|split].
  - split.
    + now rewrite list_set_length.
    + constructor; auto.
    + constructor; auto.
    + cbn [chain]. split; [rewrite wat_set_same; auto|].
      split; [unfold seen; rewrite SO by (simpl; auto); exact V|]. split; auto.
      eapply chain_ext; [| |exact C].
      * intros x Hx. now rewrite SO.
      * intros x Hx. unfold seen. rewrite SO by (simpl; auto). reflexivity.
  - unfold cost. rewrite SC, V. cbn [length]. lia.
  - lia.
Qed.

(* going back up *)
Lemma walk_up : forall nodes w cp st, walking nodes w cp st -> seen w cp = true -> cp <> 0 ->
  exists p st', st = p :: st' /\ wprev (wat w cp) = p /\ below_len nodes p /\ IsLeaf (at_ nodes p) = false /\
    walking nodes w p st' /\ (cost w p st' < cost w cp st)%nat.
Proof.
  intros nodes w cp st [L R N C] V Nz. destruct st as [|p st]; [simpl in C; contradiction|].
  destruct C as (C1 & C2 & C3 & C4). exists p, st. inversion R as [|? ? Rc Rs]; subst. inversion N as [|? ? Nc Ns]; subst. inversion Rs; subst.
  split; auto. split; auto. split; auto. split; auto. split.
  - split; auto.
  - unfold cost. rewrite C2, V. cbn [length]. lia.
Qed.

(* ---- the iterator of forallguarded.go ---- *)

Definition it_inv (dim : nat) (i : iter) (st : list Z) : Prop :=
  Forall (node_valid dim (length (it_nodes i))) (it_nodes i) /\ length (it_t i) = dim /\
  walking (it_nodes i) (it_walk i) (it_cp i) st.

Lemma it_step_total : forall dim i st, it_inv dim i st ->
  (exists i' st', it_step i = Ok (inl i') /\ it_inv dim i' st' /\ it_nodes i' = it_nodes i /\
     unvisited (it_walk i') = unvisited (it_walk i) /\
     (cost (it_walk i') (it_cp i') st' < cost (it_walk i) (it_cp i) st)%nat) \/
  (exists i' st', it_step i = Ok (inr (true, i')) /\ it_inv dim i' st' /\ it_nodes i' = it_nodes i /\
     (S (unvisited (it_walk i')) = unvisited (it_walk i))%nat /\
     (cost (it_walk i') (it_cp i') st' < cost (it_walk i) (it_cp i) st)%nat) \/
  it_step i = Ok (inr (false, i)).
Proof.
  intros dim [t nodes w cp] st (V & T & W). cbn [it_nodes it_t it_walk it_cp] in *.
  pose proof W as [L R N C]. inversion R as [|? ? Rc Rs]; subst.
  assert (Rw : forall x, below_len nodes x -> below_len w x) by (intros x; unfold below_len; now rewrite L).
  unfold it_step. cbn [it_nodes it_t it_walk it_cp]. rewrite sget_wat by (apply Rw; auto). cbn [rbind].
  destruct (wvisited (wat w cp)) eqn:S.
  2:{ right. left. destruct (walk_mark nodes w cp st W S) as (M1 & M2 & M3 & M4 & M5). cbv zeta in *. rewrite M1. cbn [rbind].
      eexists _, st. split; [reflexivity|]. cbn [it_nodes it_t it_walk it_cp]. split; [split; [exact V|split; auto]|]. split; auto. }
  assert (Hback : (exists i' st', it_backup (mkIter t nodes w cp) = Ok (inl i') /\ it_inv (length t) i' st' /\ it_nodes i' = nodes /\
     unvisited (it_walk i') = unvisited w /\ (cost (it_walk i') (it_cp i') st' < cost w cp st)%nat) \/
     it_backup (mkIter t nodes w cp) = Ok (inr (false, mkIter t nodes w cp))).
  { unfold it_backup. cbn [it_nodes it_t it_walk it_cp]. destruct (Z.eqb_spec cp 0) as [Z0|Z0]; [auto|left].
    destruct (walk_up nodes w cp st W S Z0) as (p & st' & -> & P1 & P2 & P3 & P4 & P5).
    rewrite sget_wat by (apply Rw; auto). cbn [rbind]. rewrite P1. rewrite sget_at by auto. cbn [rbind].
    destruct (valid_at _ _ _ p V) as [X|(X & _)]; [congruence|]. rewrite sset_ok by auto. cbn [rbind].
    eexists _, st'. split; [reflexivity|]. cbn [it_nodes it_t it_walk it_cp]. split; [split; [exact V|split; [apply list_set_length|auto]]|]. auto. }
  rewrite sget_at by auto. cbn [rbind]. destruct (IsLeaf (at_ nodes cp)) eqn:F.
  { destruct Hback as [B|B]; [left|right; right]; exact B. }
  destruct (valid_at _ _ _ cp V) as [X|(X1 & X2 & X3)]; [congruence|].
  assert (Hdown : forall child v, below_len nodes child -> seen w child = false ->
    exists i' st', it_descend (mkIter t nodes w cp) (at_ nodes cp) child v = Ok (inl i') /\ it_inv (length t) i' st' /\ it_nodes i' = nodes /\
     unvisited (it_walk i') = unvisited w /\ (cost (it_walk i') (it_cp i') st' < cost w cp st)%nat).
  { intros child v Hc U. unfold it_descend. cbn [it_nodes it_t it_walk it_cp].
    destruct (walk_down nodes w cp st child W S F Hc U) as (D1 & D2 & D3 & D4). cbv zeta in *.
    rewrite sset_ok by auto. cbn [rbind]. rewrite sget_wat by (apply Rw; auto). cbn [rbind]. rewrite D1. cbn [rbind].
    eexists _, (cp :: st). split; [reflexivity|]. cbn [it_nodes it_t it_walk it_cp]. split; [split; [exact V|split; [apply list_set_length|auto]]|]. auto. }
  rewrite sget_wat by (apply Rw; exact X2). cbn [rbind]. destruct (wvisited (wat w (zChild (at_ nodes cp)))) eqn:SZ; cbn [negb].
  2:{ left. apply Hdown; auto. }
  rewrite sget_wat by (apply Rw; exact X3). cbn [rbind]. destruct (wvisited (wat w (oChild (at_ nodes cp)))) eqn:SO; cbn [negb].
  2:{ left. apply Hdown; auto. }
  destruct Hback as [B|B]; [left|right; right]; exact B.
Qed.

Lemma it_next_total : forall dim fuel i st, it_inv dim i st -> (cost (it_walk i) (it_cp i) st < fuel)%nat ->
  exists i' st', it_inv dim i' st' /\ it_nodes i' = it_nodes i /\
    (cost (it_walk i') (it_cp i') st' <= cost (it_walk i) (it_cp i) st)%nat /\
    ((it_next fuel i = Ok (true, i') /\ (S (unvisited (it_walk i')) = unvisited (it_walk i))%nat) \/
     it_next fuel i = Ok (false, i')).
Proof.
  intros dim fuel. induction fuel as [|fuel IH]; intros i st I F; [lia|]. cbn [it_next].
  destruct (it_step_total dim i st I) as [(i1 & st1 & E & I1 & N1 & U1 & C1)|[(i1 & st1 & E & I1 & N1 & U1 & C1)|E]]; rewrite E; cbn [rbind].
  - destruct (IH i1 st1 I1) as (i' & st' & A & B & C & D); [lia|]. exists i', st'. split; auto. split; [congruence|]. split; [lia|].
    destruct D as [[D1 D2]|D]; [left|right; auto]. split; auto. congruence.
  - exists i1, st1. split; auto. split; auto. split; [lia|]. left. auto.
  - exists i, st. split; auto.
Qed.

(* Every call of Next during an iteration returns. *)
Definition it_ok (dim : nat) (i : iter) : Prop :=
  exists st, it_inv dim i st /\ (cost (it_walk i) (it_cp i) st < next_fuel (it_nodes i))%nat.

Theorem Next_total : forall dim i, it_ok dim i ->
  exists more i', Next i = Ok (more, i') /\ it_ok dim i' /\
    (if more then S (unvisited (it_walk i')) = unvisited (it_walk i) else True)%nat.
Proof.
  intros dim i (st & I & F). unfold Next. destruct (it_next_total dim _ i st I F) as (i' & st' & A & B & C & D).
  destruct D as [[D1 D2]|D]; [exists true|exists false]; exists i'; rewrite ?D1, ?D; split; auto; split; auto; exists st'; split; auto; rewrite B; lia.
Qed.

Lemma wat_repeat : forall n x, wat (repeat (mkWalk 0 false) n) x = mkWalk 0 false.
Proof.
  intros n x. unfold wat. generalize (Z.to_nat x) as k. induction n as [|n IH]; intros [|k]; simpl; auto.
Qed.
Lemma unvisited_repeat : forall n, unvisited (repeat (mkWalk 0 false) n) = n.
Proof. unfold unvisited. induction n as [|n IH]; simpl; auto. Qed.
Lemma walking_init : forall nodes, nodes <> [] -> walking nodes (repeat (mkWalk 0 false) (length nodes)) 0 [].
Proof.
  intros nodes H. split.
  - apply repeat_length.
  - repeat constructor; [lia|]. destruct nodes; [congruence|]. simpl. lia.
  - repeat constructor. auto.
  - reflexivity.
Qed.

Theorem iter_total : forall dim nodes,
  (exists e, newNodeAsValuesIter dim nodes = Err e) \/
  (exists i, newNodeAsValuesIter dim nodes = Ok i /\ it_ok dim i /\ unvisited (it_walk i) = length nodes).
Proof.
  intros dim nodes. unfold newNodeAsValuesIter. destruct nodes as [|n l] eqn:EN; [left; eauto|]. rewrite <- EN.
  destruct (validateNodes nodes dim (length nodes)) eqn:V; [left; eauto|right].
  apply validateNodes_iff in V. eexists. split; [reflexivity|]. cbn [it_walk]. split; [|apply unvisited_repeat].
  exists []. cbn [it_walk it_cp it_nodes]. split.
  - split; [exact V|]. cbn [it_t it_nodes it_walk it_cp]. split; [apply repeat_length|]. apply walking_init. subst; discriminate.
  - unfold cost, seen. rewrite wat_repeat, unvisited_repeat. unfold next_fuel. simpl. lia.
Qed.

(* ---- leafsAsConsts of dfs/utils.go ---- *)

Definition lw_inv (dim : nat) (nodes : list node) (s : lwalk) (st : list Z) : Prop :=
  length (lw_cv s) = dim /\ walking nodes (lw_walk s) (lw_cp s) st /\
  Forall (fun c => length (cVal c) = dim) (lw_pos s) /\ Forall (fun c => length (cVal c) = dim) (lw_neg s).

Lemma lw_step_total : forall dim nodes s st, Forall (node_valid dim (length nodes)) nodes -> lw_inv dim nodes s st ->
  (exists s' st', lw_step nodes s = Ok (inl s') /\ lw_inv dim nodes s' st' /\
     (cost (lw_walk s') (lw_cp s') st' < cost (lw_walk s) (lw_cp s) st)%nat) \/
  lw_step nodes s = Ok (inr s).
Proof.
  intros dim nodes [cv w cp P Ng] st V (T & W & HP & HN). cbn [lw_cv lw_walk lw_cp lw_pos lw_neg] in *.
  pose proof W as [L R N C]. inversion R as [|? ? Rc Rs]; subst.
  assert (Rw : forall x, below_len nodes x -> below_len w x) by (intros x; unfold below_len; now rewrite L).
  unfold lw_step. cbn [lw_cv lw_walk lw_cp lw_pos lw_neg]. rewrite sget_wat by (apply Rw; auto). cbn [rbind].
  destruct (wvisited (wat w cp)) eqn:S.
  2:{ left. destruct (walk_mark nodes w cp st W S) as (M1 & M2 & M3 & M4 & M5). cbv zeta in *. rewrite M1. cbn [rbind].
      rewrite sget_at by auto. cbn [rbind].
      destruct (negb (IsLeaf (at_ nodes cp))); [|destruct (nValue (at_ nodes cp))].
      all: eexists _, st; split; [reflexivity|]; cbn [lw_cv lw_walk lw_cp lw_pos lw_neg]; split; [|exact M3].
      all: split; auto; split; auto; split; auto; apply Forall_app; split; auto. }
  assert (Hback : (exists s' st', lw_backup nodes (mkLwalk cv w cp P Ng) = Ok (inl s') /\ lw_inv (length cv) nodes s' st' /\
     (cost (lw_walk s') (lw_cp s') st' < cost w cp st)%nat) \/
     lw_backup nodes (mkLwalk cv w cp P Ng) = Ok (inr (mkLwalk cv w cp P Ng))).
  { unfold lw_backup. cbn [lw_cv lw_walk lw_cp lw_pos lw_neg]. destruct (Z.eqb_spec cp 0) as [Z0|Z0]; [auto|left].
    destruct (walk_up nodes w cp st W S Z0) as (p & st' & -> & P1 & P2 & P3 & P4 & P5).
    rewrite sget_wat by (apply Rw; auto). cbn [rbind]. rewrite P1. rewrite sget_at by auto. cbn [rbind].
    destruct (valid_at _ _ _ p V) as [X|(X & _)]; [congruence|]. rewrite sset_ok by auto. cbn [rbind].
    eexists _, st'. split; [reflexivity|]. cbn [lw_cv lw_walk lw_cp lw_pos lw_neg]. split; auto. split; [apply list_set_length|auto]. }
  rewrite sget_at by auto. cbn [rbind]. destruct (IsLeaf (at_ nodes cp)) eqn:F.
  { destruct Hback as [B|B]; [left|right]; exact B. }
  destruct (valid_at _ _ _ cp V) as [X|(X1 & X2 & X3)]; [congruence|].
  assert (Hdown : forall child v, below_len nodes child -> seen w child = false ->
    exists s' st', lw_descend (mkLwalk cv w cp P Ng) (at_ nodes cp) child v = Ok (inl s') /\ lw_inv (length cv) nodes s' st' /\
     (cost (lw_walk s') (lw_cp s') st' < cost w cp st)%nat).
  { intros child v Hc U. unfold lw_descend. cbn [lw_cv lw_walk lw_cp lw_pos lw_neg].
    destruct (walk_down nodes w cp st child W S F Hc U) as (D1 & D2 & D3 & D4). cbv zeta in *.
    rewrite sset_ok by auto. cbn [rbind]. rewrite sget_wat by (apply Rw; auto). cbn [rbind]. rewrite D1. cbn [rbind].
    eexists _, (cp :: st). split; [reflexivity|]. cbn [lw_cv lw_walk lw_cp lw_pos lw_neg]. split; auto. split; [apply list_set_length|auto]. }
  rewrite sget_wat by (apply Rw; exact X2). cbn [rbind]. destruct (wvisited (wat w (zChild (at_ nodes cp)))) eqn:SZ; cbn [negb].
  2:{ left. apply Hdown; auto. }
  rewrite sget_wat by (apply Rw; exact X3). cbn [rbind]. destruct (wvisited (wat w (oChild (at_ nodes cp)))) eqn:SO; cbn [negb].
  2:{ left. apply Hdown; auto. }
  destruct Hback as [B|B]; [left|right]; exact B.
Qed.

Lemma lw_loop_total : forall dim nodes fuel s st, Forall (node_valid dim (length nodes)) nodes -> lw_inv dim nodes s st ->
  (cost (lw_walk s) (lw_cp s) st < fuel)%nat -> exists s' st', lw_loop fuel nodes s = Ok s' /\ lw_inv dim nodes s' st'.
Proof.
  intros dim nodes fuel. induction fuel as [|fuel IH]; intros s st V I F; [lia|]. cbn [lw_loop].
  destruct (lw_step_total dim nodes s st V I) as [(s1 & st1 & E & I1 & C1)|E]; rewrite E; cbn [rbind].
  - apply (IH s1 st1); auto. lia.
  - eauto.
Qed.

(* On a non-empty list: an error or the leafs. *)
Theorem leafs_total : forall dim nodes, nodes <> [] ->
  (exists e, leafsAsConsts dim nodes = Err e) \/
  (exists p n, leafsAsConsts dim nodes = Ok (p, n) /\
     Forall (fun c => length (cVal c) = dim) p /\ Forall (fun c => length (cVal c) = dim) n).
Proof.
  intros dim nodes H. unfold leafsAsConsts.
  destruct (validateNodes nodes dim (length nodes)) eqn:V; [left; eauto|right].
  apply validateNodes_iff in V.
  destruct (lw_loop_total dim nodes (leafs_fuel nodes)
              (mkLwalk (repeat 0 dim) (repeat (mkWalk 0 false) (length nodes)) 0 [] []) [] V) as (s' & st' & E & A & B & C & D).
  - split; [apply repeat_length|]. split; [now apply walking_init|]. split; constructor.
  - unfold cost, seen. cbn [lw_walk lw_cp]. rewrite wat_repeat, unvisited_repeat. unfold leafs_fuel. simpl. lia.
  - rewrite E. cbn [rbind]. eauto.
Qed.

(* ---- the loop of allcomp/const.go ---- *)

Definition ac_inv (nodes : list node) (visited : list Z) : Prop := NoDup visited /\ Forall (below_len nodes) visited.

Lemma ac_inv_len : forall nodes visited, ac_inv nodes visited -> (length visited <= length nodes)%nat.
Proof.
  intros nodes visited [N R].
  rewrite <- (map_length Z.to_nat visited), <- (seq_length (length nodes) 0).
  apply NoDup_incl_length.
  - revert R. induction N as [|x l Hx N IH]; intros R; simpl; constructor; inversion R; subst; auto.
    intros H. apply in_map_iff in H as (y & E & Hy). apply Hx.
    match goal with H : Forall _ l |- _ => rewrite Forall_forall in H; pose proof (H y Hy) as [Y _] end.
    match goal with H : below_len nodes x |- _ => destruct H as [X _] end.
    replace x with y by lia. exact Hy.
  - intros k Hk. apply in_map_iff in Hk as (y & <- & Hy). rewrite Forall_forall in R. destruct (R y Hy). apply in_seq. lia.
Qed.

Lemma ac_push_total : forall nodes stack visited child, ac_inv nodes visited ->
  ac_push nodes (stack, visited) child = Panic /\ ~ below_len nodes child \/
  exists stack' visited', ac_push nodes (stack, visited) child = Ok (stack', visited') /\ ac_inv nodes visited' /\
    (length stack' + length visited = length stack + length visited')%nat.
Proof.
  intros nodes stack visited child [N R]. unfold ac_push. destruct (existsb (Z.eqb child) visited) eqn:E.
  - right. exists stack, visited. split; auto. split; [split; auto|lia].
  - assert (NI : ~ In child visited).
    { intros H. assert (X : existsb (Z.eqb child) visited = true) by (apply existsb_exists; exists child; split; auto; apply Z.eqb_refl). congruence. }
    unfold sget. destruct (Z.ltb_spec child 0) as [L|L].
    + left. split; auto. unfold below_len. lia.
    + destruct (nth_error nodes (Z.to_nat child)) as [n|] eqn:En; cbn [rbind].
      * right. exists (n :: stack), (child :: visited). split; auto.
        assert (B : below_len nodes child).
        { unfold below_len. pose proof (proj1 (nth_error_Some nodes (Z.to_nat child))) as X. rewrite En in X. specialize (X ltac:(discriminate)). lia. }
        split; [split; constructor; auto|]. simpl. lia.
      * left. split; auto. apply nth_error_None in En. unfold below_len. lia.
Qed.

(* It ends with an answer, an error, or a panic because of a child out of range. *)
Lemma ac_loop_total : forall dim nodes val b, length val = dim -> forall fuel stack visited,
  ac_inv nodes visited -> (length stack + length nodes < fuel + length visited)%nat -> Forall (fun n => In n nodes) stack ->
  (exists r, ac_loop fuel dim nodes val b (stack, visited) = Ok r) \/
  (exists e, ac_loop fuel dim nodes val b (stack, visited) = Err e) \/
  ac_loop fuel dim nodes val b (stack, visited) = Panic /\
    exists n, In n nodes /\ IsLeaf n = false /\ (~ below_len nodes (zChild n) \/ ~ below_len nodes (oChild n)).
Proof.
  intros dim nodes val b Hl fuel. induction fuel as [|fuel IH]; intros stack visited I F Hin.
  - pose proof (ac_inv_len _ _ I). lia.
  - cbn [ac_loop]. destruct stack as [|n stack]; [left; eauto|]. inversion Hin as [|? ? Hn Hs]; subst.
    destruct (IsLeaf n) eqn:L.
    + destruct (eqb (nValue n) b); [|left; eauto]. apply IH; auto. simpl in F. lia.
    + destruct ((nFeat n <? 0) || _) eqn:E; [right; left; eauto|]. apply out_false in E.
      assert (Hx : exists x, sget val (nFeat n) = Ok x).
      { unfold sget. destruct (Z.ltb_spec (nFeat n) 0); [lia|]. destruct (nth_error val (Z.to_nat (nFeat n))) eqn:En; eauto. apply nth_error_None in En. lia. }
      destruct Hx as (x & ->). cbn [rbind].
      assert (Next : forall stack' visited', ac_inv nodes visited' -> (length stack' + length visited = length stack + length visited')%nat ->
        Forall (fun n => In n nodes) stack' ->
        (exists r, ac_loop fuel (length val) nodes val b (stack', visited') = Ok r) \/
        (exists e, ac_loop fuel (length val) nodes val b (stack', visited') = Err e) \/
        ac_loop fuel (length val) nodes val b (stack', visited') = Panic /\
          exists n, In n nodes /\ IsLeaf n = false /\ (~ below_len nodes (zChild n) \/ ~ below_len nodes (oChild n))).
      { intros stack' visited' I' L' H'. apply IH; auto. simpl in F. lia. }
      assert (Keep : forall st vs child st' vs', ac_push nodes (st, vs) child = Ok (st', vs') -> Forall (fun n => In n nodes) st -> Forall (fun n => In n nodes) st').
      { intros st vs child st' vs' H Hst. unfold ac_push in H. destruct (existsb _ _); [congruence|]. unfold sget in H. destruct (child <? 0); [discriminate|].
        destruct (nth_error nodes (Z.to_nat child)) eqn:En; cbn [rbind] in H; [|discriminate]. injection H as <- <-. constructor; auto. eapply nth_error_In; eauto. }
      assert (One : forall child, (child = zChild n \/ child = oChild n) ->
        (exists r, (rdo st' <- ac_push nodes (stack, visited) child ;; ac_loop fuel (length val) nodes val b st') = Ok r) \/
        (exists e, (rdo st' <- ac_push nodes (stack, visited) child ;; ac_loop fuel (length val) nodes val b st') = Err e) \/
        (rdo st' <- ac_push nodes (stack, visited) child ;; ac_loop fuel (length val) nodes val b st') = Panic /\
          exists n, In n nodes /\ IsLeaf n = false /\ (~ below_len nodes (zChild n) \/ ~ below_len nodes (oChild n))).
      { intros child Hc. destruct (ac_push_total nodes stack visited child I) as [[-> O]|(st' & vs' & E1 & I1 & L1)].
        - right; right. split; auto. exists n. split; auto. split; auto. destruct Hc; subst; auto.
        - rewrite E1. cbn [rbind]. apply Next; auto. eapply Keep; eauto. }
      destruct (x =? BOT); [|destruct (x =? ZERO); [apply One; auto|destruct (x =? ONE); [apply One; auto|]]].
      * destruct (ac_push_total nodes stack visited (zChild n) I) as [[-> O]|(st1 & vs1 & E1 & I1 & L1)].
        { right; right. split; auto. exists n. split; auto. }
        rewrite E1. cbn [rbind].
        destruct (ac_push_total nodes st1 vs1 (oChild n) I1) as [[-> O]|(st2 & vs2 & E2 & I2 & L2)].
        { right; right. split; auto. exists n. split; auto. }
        rewrite E2. cbn [rbind]. apply Next; auto; [lia|]. eapply Keep; [exact E2|]. eapply Keep; eauto.
      * cbn [rbind]. apply Next; auto.
Qed.

Theorem allcomp_total : forall dim nodes c b, length (cVal c) = dim ->
  (exists r, allcomp_const dim nodes c b = Ok r) \/ (exists e, allcomp_const dim nodes c b = Err e) \/
  allcomp_const dim nodes c b = Panic /\
    exists n, In n nodes /\ IsLeaf n = false /\ (~ below_len nodes (zChild n) \/ ~ below_len nodes (oChild n)).
Proof.
  intros dim nodes c b H. unfold allcomp_const. destruct nodes as [|root l] eqn:E; [right; left; eauto|]. rewrite <- E.
  apply ac_loop_total; auto.
  - split; constructor.
  - unfold allcomp_fuel. simpl. lia.
  - constructor; auto. subst; simpl; auto.
Qed.

(* ---- the loop of isnode/const.go ---- *)

(* Where the walk goes from node x, if it goes on. *)
Definition next_of (dim : nat) (nodes : list node) (val : list FeatV) (n : node) : option Z :=
  if IsLeaf n then None
  else if (nFeat n <? 0) || (Z.of_nat dim <=? nFeat n) then None
  else
    let x := nth (Z.to_nat (nFeat n)) val BOT in
    if x =? BOT then None
    else let child := if x =? ZERO then zChild n else oChild n in
         if (child <? 0) || (Z.of_nat (length nodes) <=? child) then None else Some child.

Lemma isnode_step_next : forall dim nodes val n visited, length val = dim -> length visited = dim ->
  match next_of dim nodes val n with
  | Some x => below_len nodes x /\ exists visited', isnode_step dim nodes val n visited = Ok (inl (at_ nodes x, visited')) /\ length visited' = dim
  | None => (exists visited', isnode_step dim nodes val n visited = Ok (inr visited')) \/ (exists e, isnode_step dim nodes val n visited = Err e)
  end.
Proof.
  intros dim nodes val n visited Hv Hs. unfold next_of, isnode_step. destruct (IsLeaf n); [left; eauto|].
  destruct ((nFeat n <? 0) || (Z.of_nat dim <=? nFeat n)) eqn:E; [right; eauto|]. apply out_false in E.
  assert (Hx : sget val (nFeat n) = Ok (nth (Z.to_nat (nFeat n)) val BOT)) by (apply sget_ok; [lia|apply nth_error_nth'; lia]).
  rewrite Hx. cbn [rbind]. destruct (nth (Z.to_nat (nFeat n)) val BOT =? BOT); [left; eauto|].
  rewrite sset_ok by (rewrite Hs; lia). cbn [rbind].
  destruct (_ =? ZERO).
  - destruct ((zChild n <? 0) || _) eqn:EZ; [right; eauto|]. apply out_false in EZ. split; auto.
    rewrite sget_at by auto. cbn [rbind]. eexists. split; [reflexivity|]. now rewrite list_set_length.
  - destruct ((oChild n <? 0) || _) eqn:EZ; [right; eauto|]. apply out_false in EZ. split; auto.
    rewrite sget_at by auto. cbn [rbind]. eexists. split; [reflexivity|]. now rewrite list_set_length.
Qed.

(* the k-th node of the walk from position x *)
Fixpoint walk_to (f : Z -> option Z) (k : nat) (x : Z) : option Z :=
  match k with O => Some x | S k => match f x with Some y => walk_to f k y | None => None end end.

Lemma walk_to_add : forall f k j x, walk_to f (k + j) x = match walk_to f k x with Some y => walk_to f j y | None => None end.
Proof. induction k as [|k IH]; intros j x; simpl; auto. destruct (f x); auto. Qed.
Lemma walk_to_le : forall f k j x, (j <= k)%nat -> walk_to f k x <> None -> walk_to f j x <> None.
Proof. intros f k j x L H. replace k with (j + (k - j))%nat in H by lia. rewrite walk_to_add in H. destruct (walk_to f j x); congruence. Qed.

(* A walk that repeats a node never ends. *)
Lemma walk_cycle : forall f x i j y, (i < j)%nat -> walk_to f i x = Some y -> walk_to f j x = Some y -> forall k, walk_to f k x <> None.
Proof.
  intros f x i j y L Hi Hj.
  assert (Loop : walk_to f (j - i) y = Some y).
  { replace j with (i + (j - i))%nat in Hj by lia. rewrite walk_to_add, Hi in Hj. exact Hj. }
  assert (Many : forall n, walk_to f (n * (j - i)) y = Some y).
  { induction n as [|n IH]; auto. simpl. rewrite walk_to_add, Loop. exact IH. }
  intros k. apply (walk_to_le f (i + k * (j - i))).
  - assert (1 <= j - i)%nat by lia. nia.
  - rewrite walk_to_add, Hi, Many. discriminate.
Qed.

(* pigeonhole on the positions of the first n+1 nodes *)
Lemma repeats : forall (l : list Z) n, (n < length l)%nat -> Forall (fun x => 0 <= x < Z.of_nat n) l ->
  exists i j y, (i < j)%nat /\ nth_error l i = Some y /\ nth_error l j = Some y.
Proof.
  intros l n L R. destruct (ListDec.NoDup_dec Z.eq_dec l) as [N|N].
  - exfalso.
    assert (X : (length l <= n)%nat); [|lia].
    rewrite <- (map_length Z.to_nat l). rewrite <- (seq_length n 0). apply NoDup_incl_length.
    + clear L. induction N as [|x l Hx N IH]; simpl; constructor; inversion R; subst; auto.
      intros H. apply in_map_iff in H as (y & E & Hy). apply Hx.
      match goal with H : Forall _ l |- _ => rewrite Forall_forall in H; pose proof (H y Hy) end. replace x with y by lia. exact Hy.
    + intros k Hk. apply in_map_iff in Hk as (y & <- & Hy). rewrite Forall_forall in R. pose proof (R y Hy). apply in_seq. lia.
  - clear R L. induction l as [|x l IH]; [exfalso; apply N; constructor|].
    destruct (in_dec Z.eq_dec x l) as [H|H].
    + apply In_nth_error in H as (j & Hj). exists 0%nat, (S j), x. split; [lia|]. auto.
    + destruct IH as (i & j & y & A & B & C); [intros X; apply N; constructor; auto|]. exists (S i), (S j), y. split; [lia|]. auto.
Qed.

Lemma walk_pigeon : forall f n x, (forall y z, 0 <= y < Z.of_nat n -> f y = Some z -> 0 <= z < Z.of_nat n) -> 0 <= x < Z.of_nat n ->
  walk_to f n x <> None -> forall k, walk_to f k x <> None.
Proof.
  intros f n x Hf Hx H.
  set (l := map (fun k => match walk_to f k x with Some y => y | None => 0 end) (seq 0 (S n))).
  assert (R : forall k y, walk_to f k x = Some y -> 0 <= y < Z.of_nat n).
  { assert (G : forall k x y, 0 <= x < Z.of_nat n -> walk_to f k x = Some y -> 0 <= y < Z.of_nat n).
    { induction k as [|k IH]; intros u y Hu E; simpl in E; [congruence|]. destruct (f u) eqn:Ef; [|discriminate]. eapply IH; [|exact E]. eapply Hf; eauto. }
    eauto. }
  destruct (repeats l n) as (i & j & y & L & Hi & Hj).
  - unfold l. rewrite map_length, seq_length. lia.
  - unfold l. apply Forall_map, Forall_forall. intros k Hk. apply in_seq in Hk. destruct (walk_to f k x) eqn:E; [eauto|lia].
  - assert (V : forall k y, nth_error l k = Some y -> walk_to f k x = Some y).
    { intros k z Hk. unfold l in Hk. assert (Lk : (k < S n)%nat).
      { rewrite <- (seq_length (S n) 0). rewrite <- (map_length (fun k => match walk_to f k x with Some y => y | None => 0 end)). apply nth_error_Some. congruence. }
      rewrite nth_error_map in Hk. rewrite (nth_error_nth' _ 0%nat) in Hk by (rewrite seq_length; lia). rewrite seq_nth in Hk by lia. cbn [option_map] in Hk.
      simpl in Hk. pose proof (walk_to_le f n k x ltac:(lia) H). destruct (walk_to f k x); congruence. }
    eapply walk_cycle; eauto.
Qed.

Lemma next_of_range : forall dim nodes val n z, next_of dim nodes val n = Some z -> below_len nodes z.
Proof.
  intros dim nodes val n z. unfold next_of. destruct (IsLeaf n); [discriminate|]. destruct ((nFeat n <? 0) || _); [discriminate|].
  destruct (_ =? BOT); [discriminate|]. cbv zeta. destruct ((_ <? 0) || _) eqn:E; [discriminate|]. apply out_false in E. intros [= <-]. exact E.
Qed.

(* The loop, with any number of turns allowed. *)
Lemma isnode_loop_walk : forall dim nodes val, length val = dim -> forall fuel x visited, length visited = dim -> below_len nodes x ->
  let f := fun y => next_of dim nodes val (at_ nodes y) in
  (isnode_loop fuel dim nodes val (at_ nodes x) visited = Hang /\ walk_to f fuel x <> None) \/
  ((exists v, isnode_loop fuel dim nodes val (at_ nodes x) visited = Ok v) \/ (exists e, isnode_loop fuel dim nodes val (at_ nodes x) visited = Err e)) /\
  walk_to f fuel x = None.
Proof.
  intros dim nodes val Hv fuel. induction fuel as [|fuel IH]; intros x visited Hs Hx f.
  - left. split; [reflexivity|discriminate].
  - cbn [isnode_loop walk_to]. pose proof (isnode_step_next dim nodes val (at_ nodes x) visited Hv Hs) as H. unfold f at 1 3.
    destruct (next_of dim nodes val (at_ nodes x)) as [y|].
    + destruct H as (Hy & vis' & -> & L). cbn [rbind]. apply IH; auto.
    + right. split; auto. destruct H as [(v & ->)|(e & ->)]; cbn [rbind]; eauto.
Qed.

(* isnode.Const on any list of nodes: an answer, an error, or a loop that never
   ends, whatever the number of turns. *)
Theorem isnode_total : forall dim nodes c, length (cVal c) = dim ->
  (exists r, isnode_const dim nodes c = Ok r) \/ (exists e, isnode_const dim nodes c = Err e) \/
  isnode_const dim nodes c = Hang /\
    forall root, hd_error nodes = Some root -> forall fuel, isnode_loop fuel dim nodes (cVal c) root (newVisitRecord c) = Hang.
Proof.
  intros dim nodes c H. unfold isnode_const. destruct nodes as [|root l] eqn:E; [right; left; eauto|]. rewrite <- E.
  assert (R : root = at_ nodes 0) by (subst; reflexivity).
  assert (B0 : below_len nodes 0) by (subst; unfold below_len; simpl; lia).
  assert (L0 : length (newVisitRecord c) = dim) by (unfold newVisitRecord; rewrite map_length; auto).
  pose proof (isnode_loop_walk dim nodes (cVal c) H (isnode_fuel nodes) 0 (newVisitRecord c) L0 B0) as [[EQ W]|[[(v & EQ)|(e & EQ)] W]].
  - right; right. rewrite R, EQ. split; [reflexivity|]. intros root' Hr fuel. assert (root' = at_ nodes 0) as -> by (subst; simpl in *; congruence).
    destruct (isnode_loop_walk dim nodes (cVal c) H fuel 0 (newVisitRecord c) L0 B0) as [[EQ2 _]|[_ W2]]; [exact EQ2|]. exfalso.
    eapply (walk_pigeon _ (length nodes) 0); [| |  |exact W2].
    + intros y z _ Hz. apply (next_of_range _ _ _ _ _ Hz).
    + exact B0.
    + eapply walk_to_le; [|exact W]. unfold isnode_fuel. lia.
  - left. rewrite R, EQ. cbn [rbind]. eauto.
  - right; left. rewrite R, EQ. cbn [rbind]. eauto.
Qed.
