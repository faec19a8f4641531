(* The walks of forallguarded.go and dfs/utils.go on any valid list of nodes:
   which nodes they visit, and with which values. *)
From Coq Require Import Relations Permutation.
From Verif Require Import GoBase Query Walk Spec TreeLemmas WalkLemmas Total.
Local Open Scope Z_scope.
Local Open Scope list_scope.

(* ---- specification ---- *)

(* y is a child of x. *)
Definition link (nodes : list node) (x y : Z) : Prop :=
  exists n, 0 <= x /\ nth_error nodes (Z.to_nat x) = Some n /\ IsLeaf n = false /\ (y = zChild n \/ y = oChild n).
Definition reachable (nodes : list node) (x : Z) : Prop := clos_refl_trans Z (link nodes) 0 x.

(* The tests made on a way from the root to x and their answers, last first. *)
Inductive way (nodes : list node) : list (Z * FeatV) -> Z -> Prop :=
| way_root : way nodes [] 0
| way_zero p x n : way nodes p x -> 0 <= x -> nth_error nodes (Z.to_nat x) = Some n -> IsLeaf n = false ->
    way nodes ((nFeat n, ZERO) :: p) (zChild n)
| way_one p x n : way nodes p x -> 0 <= x -> nth_error nodes (Z.to_nat x) = Some n -> IsLeaf n = false ->
    way nodes ((nFeat n, ONE) :: p) (oChild n).
(* No way tests a feature twice; in particular there are no cycles. *)
Definition tests_once (nodes : list node) : Prop := forall p x, way nodes p x -> NoDup (map fst p).
(* The instance with the answers of a way. *)
Definition answers (dim : nat) (p : list (Z * FeatV)) : inst :=
  fold_right (fun a t => set_feat t (fst a) (snd a)) (repeat BOT dim) p.

(* ---- what the walk has done so far ---- *)

Lemma at_some : forall nodes x, below_len nodes x -> nth_error nodes (Z.to_nat x) = Some (at_ nodes x).
Proof. intros nodes x [A B]. unfold at_. apply nth_error_nth'. lia. Qed.
Lemma link_at : forall nodes x y, below_len nodes x -> IsLeaf (at_ nodes x) = false -> (y = zChild (at_ nodes x) \/ y = oChild (at_ nodes x)) -> link nodes x y.
Proof. intros nodes x y H L Y. exists (at_ nodes x). split; [apply H|]. split; [now apply at_some|]. auto. Qed.
Lemma link_inv : forall nodes x y, link nodes x y -> below_len nodes x /\ IsLeaf (at_ nodes x) = false /\ (y = zChild (at_ nodes x) \/ y = oChild (at_ nodes x)).
Proof.
  intros nodes x y (n & X & E & L & Y).
  assert (B : below_len nodes x) by (assert (Z.to_nat x < length nodes)%nat by (apply nth_error_Some; congruence); unfold below_len; lia).
  rewrite (at_some nodes x B) in E. injection E as ->. auto.
Qed.

Record covers (nodes : list node) (w : list walkInfo) (cp : Z) (st : list Z) : Prop := {
  cv_reach : forall x, below_len nodes x -> seen w x = true -> reachable nodes x;
  cv_stack : Forall (reachable nodes) (cp :: st);
  cv_closed : forall x, below_len nodes x -> seen w x = true -> ~ In x (cp :: st) -> IsLeaf (at_ nodes x) = false ->
    seen w (zChild (at_ nodes x)) = true /\ seen w (oChild (at_ nodes x)) = true
}.

Inductive trail (nodes : list node) (dim : nat) : Z -> list Z -> inst -> Prop :=
| trail_root : trail nodes dim 0 [] (repeat BOT dim)
| trail_down x st t child v : trail nodes dim x st t -> below_len nodes x -> IsLeaf (at_ nodes x) = false ->
    ((child = zChild (at_ nodes x) /\ v = ZERO) \/ (child = oChild (at_ nodes x) /\ v = ONE)) ->
    trail nodes dim child (x :: st) (list_set t (Z.to_nat (nFeat (at_ nodes x))) v).

Lemma trail_way : forall nodes dim x st t, trail nodes dim x st t -> exists p, way nodes p x /\ t = answers dim p.
Proof.
  intros nodes dim x st t H. induction H as [|x st t child v H IH B L C].
  - exists []. split; [constructor|reflexivity].
  - destruct IH as (p & W & ->). exists ((nFeat (at_ nodes x), v) :: p). split; [|reflexivity].
    destruct C as [[-> ->]|[-> ->]]; [apply (way_zero nodes p x)|apply (way_one nodes p x)]; auto; try apply B; now apply at_some.
Qed.

Lemma answers_length : forall dim p, length (answers dim p) = dim.
Proof. intros dim p. induction p as [|[f v] p IH]; simpl; [apply repeat_length|]. unfold set_feat. now rewrite list_set_length. Qed.
Lemma answers_untested : forall dim p f, 0 <= f -> Forall (fun a => 0 <= fst a) p -> ~ In f (map fst p) -> nth (Z.to_nat f) (answers dim p) BOT = BOT.
Proof.
  intros dim p f Hf R N. induction p as [|[g v] p IH]; simpl.
  - generalize (Z.to_nat f). clear. induction dim as [|dim IH]; intros [|k]; simpl; auto.
  - inversion R as [|? ? R1 R2]; subst. cbn [fst] in R1. unfold set_feat. rewrite list_set_other; [apply IH; auto; intros H; apply N; now right|].
    intros E. apply N. left. cbn [fst]. lia.
Qed.
Lemma way_feats : forall dim nodes p x, Forall (node_valid dim (length nodes)) nodes -> way nodes p x -> Forall (fun a => 0 <= fst a) p.
Proof.
  intros dim nodes p x V W. induction W as [|p x n W IH X E L|p x n W IH X E L]; constructor; auto; cbn [fst];
    (rewrite Forall_forall in V; destruct (V n (nth_error_In _ _ E)) as [Q|(Q & _)]; [congruence|lia]).
Qed.

(* Taking back the last answer. *)
Lemma trail_up : forall dim nodes cp p st t, Forall (node_valid dim (length nodes)) nodes -> tests_once nodes ->
  trail nodes dim cp (p :: st) t -> trail nodes dim p st (list_set t (Z.to_nat (nFeat (at_ nodes p))) BOT).
Proof.
  intros dim nodes cp p st t V O H. inversion H as [|x st0 t0 child v H0 B L C]; subst.
  rewrite list_set_set. destruct (trail_way _ _ _ _ _ H0) as (q & W & E).
  assert (F : 0 <= nFeat (at_ nodes p) < Z.of_nat dim).
  { destruct (valid_at dim _ _ p V) as [Q|(Q & _)]; [congruence|exact Q]. }
  assert (N : ~ In (nFeat (at_ nodes p)) (map fst q)).
  { pose proof (O _ _ (way_zero nodes q p _ W (proj1 B) (at_some _ _ B) L)) as ND. cbn [map fst] in ND. now inversion ND. }
  rewrite list_set_id; [exact H0|]. rewrite E. rewrite (nth_error_nth' _ BOT) by (rewrite answers_length; lia). f_equal.
  apply answers_untested; [apply F|eapply way_feats; eauto|exact N].
Qed.

Record tour (nodes : list node) (dim : nat) (t : inst) (w : list walkInfo) (cp : Z) (st : list Z) : Prop := {
  tr_walk : walking nodes w cp st;
  tr_cover : covers nodes w cp st;
  tr_len : length t = dim;
  tr_trail : tests_once nodes -> trail nodes dim cp st t
}.

Section Tour.
Variable nodes : list node.
Variable dim : nat.
Hypothesis V : Forall (node_valid dim (length nodes)) nodes.

Lemma seen_mark : forall w cp x, length w = length nodes -> below_len nodes cp -> 0 <= x ->
  seen (list_set w (Z.to_nat cp) (mkWalk (wprev (wat w cp)) true)) x = (x =? cp) || seen w x.
Proof.
  intros w cp x L H Hx. unfold seen. destruct (Z.eqb_spec x cp) as [->|N].
  - rewrite wat_set_same; [reflexivity|]. rewrite L. exact H.
  - rewrite wat_set_other; auto. apply H.
Qed.
Lemma seen_down : forall w cp child x, length w = length nodes -> below_len nodes child -> 0 <= x ->
  seen (list_set w (Z.to_nat child) (mkWalk cp (wvisited (wat w child)))) x = seen w x.
Proof.
  intros w cp child x L H Hx. unfold seen. destruct (Z.eq_dec x child) as [->|N].
  - rewrite wat_set_same; [reflexivity|]. rewrite L. exact H.
  - rewrite wat_set_other; auto. apply H.
Qed.

Lemma tour_mark : forall t w cp st, tour nodes dim t w cp st -> seen w cp = false ->
  let w' := list_set w (Z.to_nat cp) (mkWalk (wprev (wat w cp)) true) in
  sset w cp (mkWalk (wprev (wat w cp)) true) = Ok w' /\ tour nodes dim t w' cp st /\ (cost w' cp st < cost w cp st)%nat /\
  (forall x, 0 <= x -> seen w' x = (x =? cp) || seen w x).
Proof.
  intros t w cp st [W [C1 C2 C3] L T] S. destruct (walk_mark nodes w cp st W S) as (M1 & M2 & M3 & M4 & M5). cbv zeta in *.
  pose proof (wk_len _ _ _ _ W) as LW. pose proof (wk_range _ _ _ _ W) as R. inversion R as [|? ? Rc Rs]; subst.
  assert (SM : forall x, 0 <= x -> seen (list_set w (Z.to_nat cp) (mkWalk (wprev (wat w cp)) true)) x = (x =? cp) || seen w x) by (intros; now apply seen_mark).
  split; [exact M1|]. split; [|split; [exact M3|exact SM]]. split; auto. split; auto.
  - intros x Hx Sx. rewrite SM in Sx by apply Hx. apply orb_true_iff in Sx as [E|E]; [|auto]. apply Z.eqb_eq in E as ->. now inversion C2.
  - intros x Hx Sx Nx Lx. rewrite SM in Sx by apply Hx. apply orb_true_iff in Sx as [E|E]; [apply Z.eqb_eq in E as ->; exfalso; apply Nx; now left|].
    destruct (C3 x Hx E Nx Lx) as [A B]. destruct (valid_at (length t) _ _ x V) as [Q|(_ & Q1 & Q2)]; [congruence|].
    rewrite !SM by lia. rewrite A, B, !orb_true_r. auto.
Qed.

Lemma tour_down : forall t w cp st child v, tour nodes dim t w cp st -> seen w cp = true -> IsLeaf (at_ nodes cp) = false ->
  ((child = zChild (at_ nodes cp) /\ v = ZERO) \/ (child = oChild (at_ nodes cp) /\ v = ONE)) -> seen w child = false ->
  let w' := list_set w (Z.to_nat child) (mkWalk cp (wvisited (wat w child))) in
  let t' := list_set t (Z.to_nat (nFeat (at_ nodes cp))) v in
  sset t (nFeat (at_ nodes cp)) v = Ok t' /\ sget w child = Ok (wat w child) /\
  sset w child (mkWalk cp (wvisited (wat w child))) = Ok w' /\ tour nodes dim t' w' child (cp :: st) /\
  (cost w' child (cp :: st) < cost w cp st)%nat /\ (forall x, 0 <= x -> seen w' x = seen w x).
Proof.
  intros t w cp st child v [W [C1 C2 C3] L T] S F CH U.
  pose proof (wk_len _ _ _ _ W) as LW. pose proof (wk_range _ _ _ _ W) as R. inversion R as [|? ? Rc Rs]; subst.
  destruct (valid_at (length t) _ _ cp V) as [Q|(Q0 & Q1 & Q2)]; [congruence|].
  assert (Hc : below_len nodes child) by (destruct CH as [[-> _]|[-> _]]; [exact Q1|exact Q2]).
  destruct (walk_down nodes w cp st child W S F Hc U) as (D1 & D2 & D3 & D4). cbv zeta in *.
  assert (SD : forall x, 0 <= x -> seen (list_set w (Z.to_nat child) (mkWalk cp (wvisited (wat w child)))) x = seen w x) by (intros; now apply seen_down).
  split; [apply sset_ok; exact Q0|]. split; [apply sget_wat; rewrite LW; exact Hc|]. split; [exact D1|]. split; [|split; [exact D3|exact SD]].
  split; auto.
  - split.
    + intros x Hx. rewrite SD by apply Hx. auto.
    + constructor; [|exact C2]. inversion C2 as [|? ? Cc _]; subst. eapply rt_trans; [exact Cc|]. apply rt_step. apply link_at; auto. destruct CH as [[-> _]|[-> _]]; auto.
    + intros x Hx Sx Nx Lx. rewrite SD in Sx by apply Hx. destruct (C3 x Hx Sx) as [A B]; [intros H; apply Nx; now right|exact Lx|].
      destruct (valid_at (length t) _ _ x V) as [X|(_ & X1 & X2)]; [congruence|]. rewrite !SD by lia. auto.
  - apply list_set_length.
  - intros O. apply trail_down; auto.
Qed.

(* Everything below cp is visited. *)
Definition finished (w : list walkInfo) (cp : Z) : Prop :=
  IsLeaf (at_ nodes cp) = false -> seen w (zChild (at_ nodes cp)) = true /\ seen w (oChild (at_ nodes cp)) = true.

Lemma tour_up : forall t w cp st, tour nodes dim t w cp st -> seen w cp = true -> finished w cp -> cp <> 0 ->
  exists p st', sget w cp = Ok (wat w cp) /\ wprev (wat w cp) = p /\ sget nodes p = Ok (at_ nodes p) /\
    let t' := list_set t (Z.to_nat (nFeat (at_ nodes p))) BOT in
    sset t (nFeat (at_ nodes p)) BOT = Ok t' /\ tour nodes dim t' w p st' /\ (cost w p st' < cost w cp st)%nat.
Proof.
  intros t w cp st [W [C1 C2 C3] L T] S F N.
  pose proof (wk_len _ _ _ _ W) as LW. pose proof (wk_range _ _ _ _ W) as R. inversion R as [|? ? Rc Rs]; subst.
  destruct (walk_up nodes w cp st W S N) as (p & st' & -> & P1 & P2 & P3 & P4 & P5). exists p, st'.
  destruct (valid_at (length t) _ _ p V) as [Q|(Q0 & _)]; [congruence|].
  split; [apply sget_wat; rewrite LW; exact Rc|]. split; [exact P1|]. split; [now apply sget_at|]. cbv zeta.
  split; [apply sset_ok; exact Q0|]. split; [|exact P5]. split; [exact P4| |apply list_set_length|].
  - split; [exact C1|now inversion C2|]. intros x Hx Sx Nx Lx. destruct (Z.eq_dec x cp) as [->|Ne]; [now apply F|].
    apply C3; auto. intros [H|H]; [congruence|contradiction].
  - intros O. apply (trail_up _ nodes cp); auto.
Qed.

Lemma tour_end : forall t w st, tour nodes dim t w 0 st -> seen w 0 = true -> finished w 0 ->
  forall x, reachable nodes x -> below_len nodes x /\ seen w x = true.
Proof.
  intros t w st [W [C1 C2 C3] L T] S F.
  assert (ST : st = []).
  { destruct st as [|p st]; auto. exfalso. pose proof (wk_chain _ _ _ _ W) as (_ & _ & _ & C). pose proof (wk_nodup _ _ _ _ W) as N.
    inversion N as [|? ? N1 _]. apply N1. eapply chain_last; eauto. }
  subst st. pose proof (wk_range _ _ _ _ W) as R. inversion R as [|? ? Rc Rs]; subst.
  intros x H. apply clos_rt_rtn1_iff in H. induction H as [|y z H _ [IH1 IH2]]; [auto|].
  apply link_inv in H as (B & Ly & E). destruct (valid_at (length t) _ _ y V) as [Q|(_ & Q1 & Q2)]; [congruence|].
  assert (K : seen w (zChild (at_ nodes y)) = true /\ seen w (oChild (at_ nodes y)) = true).
  { destruct (Z.eq_dec y 0) as [->|Ne]; [now apply F|]. apply C3; auto. intros [E'|[]]. auto. }
  destruct E as [-> | ->]; split; try apply K; [exact Q1|exact Q2].
Qed.

Lemma tour_init : nodes <> [] -> tour nodes dim (repeat 0 dim) (repeat (mkWalk 0 false) (length nodes)) 0 [].
Proof.
  intros NE. split; [now apply walking_init| |apply repeat_length|intros _; apply trail_root].
  split.
  - intros x _ H. unfold seen in H. rewrite wat_repeat in H. discriminate.
  - constructor; [apply rt_refl|constructor].
  - intros x _ H. unfold seen in H. rewrite wat_repeat in H. discriminate.
Qed.
End Tour.

(* ---- the iterator ---- *)

Lemma it_step_tour : forall nodes dim t w cp st, Forall (node_valid dim (length nodes)) nodes -> tour nodes dim t w cp st ->
  (exists t' w' cp' st', it_step (mkIter t nodes w cp) = Ok (inl (mkIter t' nodes w' cp')) /\ tour nodes dim t' w' cp' st' /\
     (cost w' cp' st' < cost w cp st)%nat /\ (forall x, 0 <= x -> seen w' x = seen w x)) \/
  (exists w', it_step (mkIter t nodes w cp) = Ok (inr (true, mkIter t nodes w' cp)) /\ seen w cp = false /\ tour nodes dim t w' cp st /\
     (cost w' cp st < cost w cp st)%nat /\ (forall x, 0 <= x -> seen w' x = (x =? cp) || seen w x)) \/
  (it_step (mkIter t nodes w cp) = Ok (inr (false, mkIter t nodes w cp)) /\
     forall x, reachable nodes x -> below_len nodes x /\ seen w x = true).
Proof.
  intros nodes dim t w cp st V T. pose proof (tr_walk _ _ _ _ _ _ T) as [L R N C]. inversion R as [|? ? Rc Rs]; subst.
  assert (Rw : forall x, below_len nodes x -> below_len w x) by (intros x; unfold below_len; now rewrite L).
  unfold it_step. cbn [it_nodes it_t it_walk it_cp]. rewrite sget_wat by (apply Rw; auto). cbn [rbind].
  destruct (wvisited (wat w cp)) eqn:S.
  2:{ right. left. destruct (tour_mark nodes dim V t w cp st T S) as (M1 & M2 & M3 & M4). cbv zeta in *. rewrite M1. cbn [rbind].
      eexists. split; [reflexivity|]. auto. }
  rewrite sget_at by auto. cbn [rbind].
  assert (Hback : finished nodes w cp ->
    (exists t' w' cp' st', it_backup (mkIter t nodes w cp) = Ok (inl (mkIter t' nodes w' cp')) /\ tour nodes dim t' w' cp' st' /\
     (cost w' cp' st' < cost w cp st)%nat /\ (forall x, 0 <= x -> seen w' x = seen w x)) \/
    (it_backup (mkIter t nodes w cp) = Ok (inr (false, mkIter t nodes w cp)) /\
     forall x, reachable nodes x -> below_len nodes x /\ seen w x = true)).
  { intros F. unfold it_backup. cbn [it_nodes it_t it_walk it_cp]. destruct (Z.eqb_spec cp 0) as [Z0|Z0].
    - right. split; auto. subst cp. eapply tour_end; eauto.
    - left. destruct (tour_up nodes dim V t w cp st T S F Z0) as (p & st' & P0 & P1 & P2 & P3 & P4 & P5).
      rewrite P0. cbn [rbind]. rewrite P1, P2. cbn [rbind]. rewrite P3. cbn [rbind].
      eexists _, w, p, st'. split; [reflexivity|]. auto. }
  destruct (IsLeaf (at_ nodes cp)) eqn:F.
  { destruct Hback as [B|B]; [intros X; congruence|left; exact B|right; right; exact B]. }
  destruct (valid_at _ _ _ cp V) as [X|(X1 & X2 & X3)]; [congruence|].
  assert (Hdown : forall child v, ((child = zChild (at_ nodes cp) /\ v = ZERO) \/ (child = oChild (at_ nodes cp) /\ v = ONE)) -> seen w child = false ->
    exists t' w' cp' st', it_descend (mkIter t nodes w cp) (at_ nodes cp) child v = Ok (inl (mkIter t' nodes w' cp')) /\ tour nodes dim t' w' cp' st' /\
     (cost w' cp' st' < cost w cp st)%nat /\ (forall x, 0 <= x -> seen w' x = seen w x)).
  { intros child v Hc U. unfold it_descend. cbn [it_nodes it_t it_walk it_cp].
    destruct (tour_down nodes dim V t w cp st child v T S F Hc U) as (D1 & D2 & D3 & D4 & D5 & D6). cbv zeta in *.
    rewrite D1. cbn [rbind]. rewrite D2. cbn [rbind]. rewrite D3. cbn [rbind]. eexists _, _, _, (cp :: st). split; [reflexivity|]. auto. }
  rewrite sget_wat by (apply Rw; exact X2). cbn [rbind]. destruct (wvisited (wat w (zChild (at_ nodes cp)))) eqn:SZ; cbn [negb].
  2:{ left. apply Hdown; auto. }
  rewrite sget_wat by (apply Rw; exact X3). cbn [rbind]. destruct (wvisited (wat w (oChild (at_ nodes cp)))) eqn:SO; cbn [negb].
  2:{ left. apply Hdown; auto. }
  destruct Hback as [B|B]; [intros _; split; assumption|left; exact B|right; right; exact B].
Qed.

Lemma it_next_tour : forall nodes dim fuel t w cp st, Forall (node_valid dim (length nodes)) nodes -> tour nodes dim t w cp st ->
  (cost w cp st < fuel)%nat ->
  (exists t' w' cp' st', it_next fuel (mkIter t nodes w cp) = Ok (true, mkIter t' nodes w' cp') /\ tour nodes dim t' w' cp' st' /\
     seen w cp' = false /\ (cost w' cp' st' < cost w cp st)%nat /\ (forall x, 0 <= x -> seen w' x = (x =? cp') || seen w x)) \/
  (exists i', it_next fuel (mkIter t nodes w cp) = Ok (false, i') /\ forall x, reachable nodes x -> below_len nodes x /\ seen w x = true).
Proof.
  intros nodes dim fuel. induction fuel as [|fuel IH]; intros t w cp st V T F; [lia|]. cbn [it_next].
  destruct (it_step_tour nodes dim t w cp st V T) as [(t1 & w1 & cp1 & st1 & E & T1 & C1 & S1)|[(w1 & E & U & T1 & C1 & S1)|(E & D)]]; rewrite E; cbn [rbind].
  - destruct (IH t1 w1 cp1 st1 V T1) as [(t2 & w2 & cp2 & st2 & A1 & A2 & A3 & A4 & A5)|(i2 & A1 & A2)]; [lia| |].
    + assert (P : 0 <= cp2) by (pose proof (wk_range _ _ _ _ (tr_walk _ _ _ _ _ _ A2)) as R; inversion R as [|? ? [R1 _] _]; exact R1).
      left. exists t2, w2, cp2, st2. split; auto. split; auto. split; [now rewrite <- (S1 cp2 P)|]. split; [lia|].
      intros x Hx. rewrite A5, S1; auto.
    + right. exists i2. split; auto. intros x Hx. destruct (A2 x Hx) as [B Sx]. split; auto. now rewrite <- (S1 x (proj1 B)).
  - left. exists t, w1, cp, st. auto.
  - right. eauto.
Qed.

(* The positions and values that the iterator comes to, in order. *)
Inductive tours : iter -> list (Z * inst) -> Prop :=
| To_end : forall it it', Next it = Ok (false, it') -> tours it []
| To_more : forall it it' l, Next it = Ok (true, it') -> tours it' l -> tours it ((it_cp it', it_t it') :: l).
Lemma tours_det : forall it l, tours it l -> forall l', tours it l' -> l' = l.
Proof.
  induction 1 as [it it1 E|it it1 l E H IH]; intros l' H'; inversion H' as [? i2 E2|? i2 l2 E2 H2]; subst; try congruence.
  assert (i2 = it1) as -> by congruence. f_equal. now apply IH.
Qed.

Lemma tours_tour : forall nodes dim k t w cp st, Forall (node_valid dim (length nodes)) nodes -> tour nodes dim t w cp st ->
  (cost w cp st < k)%nat -> (cost w cp st < next_fuel nodes)%nat ->
  exists l, tours (mkIter t nodes w cp) l /\ NoDup (map fst l) /\
    (forall x, 0 <= x -> In x (map fst l) -> seen w x = false) /\
    (forall x, reachable nodes x -> below_len nodes x /\ (seen w x = true \/ In x (map fst l))) /\
    Forall (fun e => reachable nodes (fst e) /\ 0 <= fst e /\ (tests_once nodes -> exists p, way nodes p (fst e) /\ snd e = answers dim p)) l.
Proof.
  intros nodes dim k. induction k as [|k IH]; intros t w cp st V T K F; [lia|].
  destruct (it_next_tour nodes dim _ t w cp st V T F) as [(t1 & w1 & cp1 & st1 & E & T1 & U & C1 & S1)|(i1 & E & D)].
  2:{ exists []. split; [eapply To_end; exact E|]. split; [constructor|]. split; [intros x _ []|]. split; [|constructor]. intros x Hx. destruct (D x Hx); auto. }
  destruct (IH t1 w1 cp1 st1 V T1) as (l & L1 & L2 & L3 & L4 & L5); [lia|lia|].
  assert (P : 0 <= cp1) by (pose proof (wk_range _ _ _ _ (tr_walk _ _ _ _ _ _ T1)) as R; inversion R as [|? ? [R1 _] _]; exact R1).
  exists ((cp1, t1) :: l). split; [exact (To_more _ (mkIter t1 nodes w1 cp1) l E L1)|]. cbn [map fst]. split; [|split; [|split]].
  - constructor; auto. intros H. specialize (L3 cp1 P H). rewrite S1, Z.eqb_refl in L3 by auto. discriminate.
  - intros x Hx [<-|H]; [exact U|]. specialize (L3 x Hx H). rewrite S1 in L3 by auto. now apply orb_false_iff in L3.
  - intros x Hx. destruct (L4 x Hx) as [B [H|H]]; split; auto; [|right; right; exact H].
    rewrite S1 in H by apply B. apply orb_true_iff in H as [H|H]; [|auto]. apply Z.eqb_eq in H as ->. right. now left.
  - constructor; auto. cbn [fst snd]. split; [|split; [exact P|]].
    + pose proof (cv_stack _ _ _ _ (tr_cover _ _ _ _ _ _ T1)) as R. now inversion R.
    + intros O. eapply trail_way. eapply tr_trail; eauto.
Qed.

Lemma init_cost : forall nodes : list node, nodes <> [] -> (cost (repeat (mkWalk 0 false) (length nodes)) 0 [] < 3 * length nodes + 3)%nat.
Proof. intros nodes H. unfold cost, seen. rewrite wat_repeat, unvisited_repeat. simpl. lia. Qed.

(* C57: on any valid node list, shared nodes, stray nodes and cycles included, the iteration comes to exactly the
   nodes that can be reached from the root, to each once; if no way tests a feature twice, with the answers of a
   way to that node as values. *)
Theorem C57_iterator : forall dim nodes, nodes <> [] -> Forall (node_valid dim (length nodes)) nodes ->
  exists it, newNodeAsValuesIter dim nodes = Ok it /\ (exists l, tours it l) /\
  forall l, tours it l ->
    NoDup (map fst l) /\ (forall x, In x (map fst l) <-> reachable nodes x) /\
    (tests_once nodes -> forall x t, In (x, t) l -> exists p, way nodes p x /\ t = answers dim p).
Proof.
  intros dim nodes NE V. assert (E : newNodeAsValuesIter dim nodes = Ok (mkIter (repeat 0 dim) nodes (repeat (mkWalk 0 false) (length nodes)) 0)).
  { unfold newNodeAsValuesIter. destruct nodes as [|n l]; [congruence|]. apply validateNodes_iff in V. now rewrite V. }
  eexists. split; [exact E|].
  destruct (tours_tour nodes dim _ _ _ _ _ V (tour_init nodes dim NE) (Nat.lt_succ_diag_r _)) as (l & L1 & L2 & L3 & L4 & L5); [apply init_cost; auto|].
  split; [eauto|]. intros l' H. rewrite (tours_det _ _ L1 _ H). split; [exact L2|]. split.
  - intros x. split.
    + intros Hx. apply in_map_iff in Hx as (e & <- & He). rewrite Forall_forall in L5. apply (L5 e He).
    + intros Hx. destruct (L4 x Hx) as [_ [S|S]]; auto. unfold seen in S. rewrite wat_repeat in S. discriminate.
  - intros O x t Hx. rewrite Forall_forall in L5. destruct (L5 _ Hx) as (_ & _ & W). now apply W.
Qed.
Print Assumptions C57_iterator.

(* ---- leafsAsConsts ---- *)

(* ps and ns are the positions and values of the leafs found so far. *)
Definition found (w : list walkInfo) (nodes : list node) (dim : nat) (v : bool) (l : list (Z * inst)) (out : list QConst) : Prop :=
  out = map (fun e => mkQConst "" (snd e)) l /\ NoDup (map fst l) /\
  (forall x, below_len nodes x -> (In x (map fst l) <-> seen w x = true /\ IsLeaf (at_ nodes x) = true /\ nValue (at_ nodes x) = v)) /\
  Forall (fun e => reachable nodes (fst e) /\ below_len nodes (fst e) /\ (tests_once nodes -> exists p, way nodes p (fst e) /\ snd e = answers dim p)) l.

Lemma found_same : forall w w' nodes dim v l out, (forall x, 0 <= x -> seen w' x = seen w x) -> found w nodes dim v l out -> found w' nodes dim v l out.
Proof. intros w w' nodes dim v l out S (A & B & C & D). split; auto. split; auto. split; auto. intros x Hx. rewrite S by apply Hx. now apply C. Qed.
Lemma found_other : forall w w' nodes dim v l out cp, (forall x, 0 <= x -> seen w' x = (x =? cp) || seen w x) ->
  (IsLeaf (at_ nodes cp) = true -> nValue (at_ nodes cp) = v -> False) -> found w nodes dim v l out -> found w' nodes dim v l out.
Proof.
  intros w w' nodes dim v l out cp S N (A & B & C & D). split; auto. split; auto. split; auto. intros x Hx. rewrite S by apply Hx.
  rewrite (C x Hx). destruct (Z.eqb_spec x cp) as [->|Ne]; [|reflexivity]. split; [tauto|]. intros (_ & H1 & H2). destruct (N H1 H2).
Qed.
Lemma found_add : forall w w' nodes dim v l out cp st t, seen w cp = false -> (forall x, 0 <= x -> seen w' x = (x =? cp) || seen w x) ->
  IsLeaf (at_ nodes cp) = true -> nValue (at_ nodes cp) = v -> tour nodes dim t w' cp st -> found w nodes dim v l out ->
  found w' nodes dim v (l ++ [(cp, t)]) (out ++ [mkQConst "" t]).
Proof.
  intros w w' nodes dim v l out cp st t U S F E T (A & B & C & D).
  pose proof (wk_range _ _ _ _ (tr_walk _ _ _ _ _ _ T)) as R. inversion R as [|? ? Rc _]; subst.
  split; [now rewrite map_app|]. rewrite map_app. cbn [map fst]. split; [|split].
  - apply (Permutation_NoDup (Permutation_cons_append _ _)). constructor; auto. intros Hx. apply (C cp Rc) in Hx as [Hx _]. congruence.
  - intros x Hx. rewrite in_app_iff, (C x Hx), S by apply Hx. cbn [In]. destruct (Z.eqb_spec x cp) as [->|Ne].
    + cbn [orb]. tauto.
    + cbn [orb]. intuition congruence.
  - apply Forall_app. split; auto. constructor; [|constructor]. cbn [fst snd]. split; [|split; [exact Rc|]].
    + pose proof (cv_stack _ _ _ _ (tr_cover _ _ _ _ _ _ T)) as Q. now inversion Q.
    + intros O. eapply trail_way. eapply tr_trail; eauto.
Qed.

Definition lw_at (nodes : list node) (dim : nat) (s : lwalk) (st : list Z) (ps ns : list (Z * inst)) : Prop :=
  tour nodes dim (lw_cv s) (lw_walk s) (lw_cp s) st /\
  found (lw_walk s) nodes dim true ps (lw_pos s) /\ found (lw_walk s) nodes dim false ns (lw_neg s).

Lemma lw_step_tour : forall nodes dim s st ps ns, Forall (node_valid dim (length nodes)) nodes -> lw_at nodes dim s st ps ns ->
  (exists s' st' ps' ns', lw_step nodes s = Ok (inl s') /\ lw_at nodes dim s' st' ps' ns' /\
     (cost (lw_walk s') (lw_cp s') st' < cost (lw_walk s) (lw_cp s) st)%nat) \/
  (lw_step nodes s = Ok (inr s) /\ forall x, reachable nodes x -> below_len nodes x /\ seen (lw_walk s) x = true).
Proof.
  intros nodes dim [t w cp P Ng] st ps ns V (T & HP & HN). cbn [lw_cv lw_walk lw_cp lw_pos lw_neg] in *.
  pose proof (tr_walk _ _ _ _ _ _ T) as [L R N C]. inversion R as [|? ? Rc Rs]; subst.
  assert (Rw : forall x, below_len nodes x -> below_len w x) by (intros x; unfold below_len; now rewrite L).
  unfold lw_step. cbn [lw_cv lw_walk lw_cp lw_pos lw_neg]. rewrite sget_wat by (apply Rw; auto). cbn [rbind].
  destruct (wvisited (wat w cp)) eqn:S.
  2:{ left. destruct (tour_mark nodes dim V t w cp st T S) as (M1 & M2 & M3 & M4). cbv zeta in *. rewrite M1. cbn [rbind].
      rewrite sget_at by auto. cbn [rbind].
      destruct (IsLeaf (at_ nodes cp)) eqn:F; cbn [negb]; [destruct (nValue (at_ nodes cp)) eqn:B|].
      - eexists _, st, (ps ++ [(cp, t)]), ns. split; [reflexivity|]. cbn [lw_cv lw_walk lw_cp lw_pos lw_neg]. split; [|exact M3]. split; [exact M2|]. cbn [lw_cv lw_walk lw_cp lw_pos lw_neg]. split.
        + eapply found_add; eauto.
        + eapply found_other; eauto; congruence.
      - eexists _, st, ps, (ns ++ [(cp, t)]). split; [reflexivity|]. cbn [lw_cv lw_walk lw_cp lw_pos lw_neg]. split; [|exact M3]. split; [exact M2|]. cbn [lw_cv lw_walk lw_cp lw_pos lw_neg]. split.
        + eapply found_other; eauto; congruence.
        + eapply found_add; eauto.
      - eexists _, st, ps, ns. split; [reflexivity|]. cbn [lw_cv lw_walk lw_cp lw_pos lw_neg]. split; [|exact M3]. split; [exact M2|]. cbn [lw_cv lw_walk lw_cp lw_pos lw_neg].
        split; eapply found_other; eauto; congruence. }
  rewrite sget_at by auto. cbn [rbind].
  assert (Hback : finished nodes w cp ->
    (exists s' st' ps' ns', lw_backup nodes (mkLwalk t w cp P Ng) = Ok (inl s') /\ lw_at nodes dim s' st' ps' ns' /\
     (cost (lw_walk s') (lw_cp s') st' < cost w cp st)%nat) \/
    (lw_backup nodes (mkLwalk t w cp P Ng) = Ok (inr (mkLwalk t w cp P Ng)) /\ forall x, reachable nodes x -> below_len nodes x /\ seen w x = true)).
  { intros F. unfold lw_backup. cbn [lw_cv lw_walk lw_cp lw_pos lw_neg]. destruct (Z.eqb_spec cp 0) as [Z0|Z0].
    - right. split; auto. subst cp. eapply tour_end; eauto.
    - left. destruct (tour_up nodes dim V t w cp st T S F Z0) as (p & st' & P0 & P1 & P2 & P3 & P4 & P5).
      rewrite P0. cbn [rbind]. rewrite P1, P2. cbn [rbind]. rewrite P3. cbn [rbind].
      eexists _, st', ps, ns. split; [reflexivity|]. split; [|exact P5]. split; auto. }
  destruct (IsLeaf (at_ nodes cp)) eqn:F.
  { destruct Hback as [B|B]; [intros X; congruence|left; exact B|right; exact B]. }
  destruct (valid_at _ _ _ cp V) as [X|(X1 & X2 & X3)]; [congruence|].
  assert (Hdown : forall child v, ((child = zChild (at_ nodes cp) /\ v = ZERO) \/ (child = oChild (at_ nodes cp) /\ v = ONE)) -> seen w child = false ->
    exists s' st' ps' ns', lw_descend (mkLwalk t w cp P Ng) (at_ nodes cp) child v = Ok (inl s') /\ lw_at nodes dim s' st' ps' ns' /\
     (cost (lw_walk s') (lw_cp s') st' < cost w cp st)%nat).
  { intros child v Hc U. unfold lw_descend. cbn [lw_cv lw_walk lw_cp lw_pos lw_neg].
    destruct (tour_down nodes dim V t w cp st child v T S F Hc U) as (D1 & D2 & D3 & D4 & D5 & D6). cbv zeta in *.
    rewrite D1. cbn [rbind]. rewrite D2. cbn [rbind]. rewrite D3. cbn [rbind]. eexists _, (cp :: st), ps, ns. split; [reflexivity|]. split; [|exact D5].
    split; [exact D4|]. cbn [lw_cv lw_walk lw_cp lw_pos lw_neg]. split; eapply found_same; eauto. }
  rewrite sget_wat by (apply Rw; exact X2). cbn [rbind]. destruct (wvisited (wat w (zChild (at_ nodes cp)))) eqn:SZ; cbn [negb].
  2:{ left. apply Hdown; auto. }
  rewrite sget_wat by (apply Rw; exact X3). cbn [rbind]. destruct (wvisited (wat w (oChild (at_ nodes cp)))) eqn:SO; cbn [negb].
  2:{ left. apply Hdown; auto. }
  destruct Hback as [B|B]; [intros _; split; assumption|left; exact B|right; exact B].
Qed.

Lemma lw_loop_tour : forall nodes dim fuel s st ps ns, Forall (node_valid dim (length nodes)) nodes -> lw_at nodes dim s st ps ns ->
  (cost (lw_walk s) (lw_cp s) st < fuel)%nat ->
  exists s' st' ps' ns', lw_loop fuel nodes s = Ok s' /\ lw_at nodes dim s' st' ps' ns' /\
    forall x, reachable nodes x -> below_len nodes x /\ seen (lw_walk s') x = true.
Proof.
  intros nodes dim fuel. induction fuel as [|fuel IH]; intros s st ps ns V I F; [lia|]. cbn [lw_loop].
  destruct (lw_step_tour nodes dim s st ps ns V I) as [(s1 & st1 & ps1 & ns1 & E & I1 & C1)|[E D]]; rewrite E; cbn [rbind].
  - apply (IH s1 st1 ps1 ns1); auto. lia.
  - exists s, st, ps, ns. auto.
Qed.

(* A leaf with value v that can be reached from the root. *)
Definition leaf_in (nodes : list node) (v : bool) (x : Z) : Prop :=
  reachable nodes x /\ exists n, nth_error nodes (Z.to_nat x) = Some n /\ IsLeaf n = true /\ nValue n = v.

(* C57: the lists of leafsAsConsts have one constant for each leaf that can be reached, the positive and the
   negative ones apart. *)
Theorem C57_leafs : forall dim nodes, nodes <> [] -> Forall (node_valid dim (length nodes)) nodes ->
  exists ps ns, leafsAsConsts dim nodes = Ok (map (fun e => mkQConst "" (snd e)) ps, map (fun e => mkQConst "" (snd e)) ns) /\
    NoDup (map fst ps) /\ (forall x, In x (map fst ps) <-> leaf_in nodes true x) /\
    NoDup (map fst ns) /\ (forall x, In x (map fst ns) <-> leaf_in nodes false x) /\
    (tests_once nodes -> forall x t, In (x, t) (ps ++ ns) -> exists p, way nodes p x /\ t = answers dim p).
Proof.
  intros dim nodes NE V. unfold leafsAsConsts. pose proof V as V'. apply validateNodes_iff in V'. rewrite V'.
  assert (I0 : forall v, found (repeat (mkWalk 0 false) (length nodes)) nodes dim v [] []).
  { intros v. split; auto. split; [constructor|]. split; [|constructor]. intros x Hx. unfold seen. rewrite wat_repeat. cbn [wvisited map In]. split; [tauto|intros [? _]; discriminate]. }
  destruct (lw_loop_tour nodes dim (leafs_fuel nodes) (mkLwalk (repeat 0 dim) (repeat (mkWalk 0 false) (length nodes)) 0 [] []) [] [] [] V)
    as (s & st & ps & ns & E & (T & (P1 & P2 & P3 & P4) & (N1 & N2 & N3 & N4)) & D).
  - split; [now apply tour_init|]. split; apply I0.
  - apply init_cost; auto.
  - rewrite E. cbn [rbind]. exists ps, ns. rewrite P1, N1. split; auto.
    assert (Q : forall v l, (forall x, below_len nodes x -> (In x (map fst l) <-> seen (lw_walk s) x = true /\ IsLeaf (at_ nodes x) = true /\ nValue (at_ nodes x) = v)) ->
      Forall (fun e : Z * inst => reachable nodes (fst e) /\ below_len nodes (fst e) /\ (tests_once nodes -> exists p, way nodes p (fst e) /\ snd e = answers dim p)) l ->
      forall x, In x (map fst l) <-> leaf_in nodes v x).
    { intros v l A B x. split.
      - intros H. pose proof H as H0. apply in_map_iff in H0 as (e & <- & He). rewrite Forall_forall in B. destruct (B e He) as (B1 & B2 & _).
        split; auto. apply (A _ B2) in H as (_ & H1 & H2). exists (at_ nodes (fst e)). split; [now apply at_some|auto].
      - intros (H & n & H1 & H2 & H3). destruct (D x H) as [B2 S]. apply (A x B2). rewrite (at_some nodes x B2) in H1. injection H1 as ->. auto. }
    split; auto. split; [now apply Q|]. split; auto. split; [now apply Q|].
    intros O x t Hx. apply in_app_iff in Hx as [Hx|Hx]; [rewrite Forall_forall in P4; destruct (P4 _ Hx) as (_ & _ & W)|rewrite Forall_forall in N4; destruct (N4 _ Hx) as (_ & _ & W)]; now apply W.
Qed.
Print Assumptions C57_leafs.

(* ---- cases ---- *)

Ltac one_more := match goal with |- tours ?i (_ :: _) =>
  let r := eval vm_compute in (Next i) in
  match r with Ok (true, ?j) => refine (To_more i j _ _ _); [vm_compute; reflexivity|] end end.

(* A node with two parents, a cycle back to the root and a stray node. *)
Definition loop_nodes : list node := [mkNode false 0 1 2; mkNode false 1 2 0; mkNode true (-1) (-1) (-1); mkNode false (-1) (-1) (-1)].
Example C57_loop_case : loop_nodes <> [] /\ Forall (node_valid 2 (length loop_nodes)) loop_nodes /\
  (exists it, newNodeAsValuesIter 2 loop_nodes = Ok it /\ tours it [(0, [0; 0]); (1, [ZERO; 0]); (2, [ZERO; ZERO])]) /\
  (forall x, reachable loop_nodes x <-> x = 0 \/ x = 1 \/ x = 2) /\
  leafsAsConsts 2 loop_nodes = Ok ([mkQConst "" [ZERO; ZERO]], []).
Proof.
  assert (V : Forall (node_valid 2 (length loop_nodes)) loop_nodes) by (apply validateNodes_iff; reflexivity).
  assert (T : exists it, newNodeAsValuesIter 2 loop_nodes = Ok it /\ tours it [(0, [0; 0]); (1, [ZERO; 0]); (2, [ZERO; ZERO])]).
  { eexists. split; [reflexivity|]. do 3 one_more. eapply To_end. reflexivity. }
  split; [discriminate|]. split; [exact V|]. split; [exact T|]. split; [|reflexivity].
  destruct (C57_iterator 2 loop_nodes ltac:(discriminate) V) as (it & E & _ & H). destruct T as (it' & E' & T).
  assert (it' = it) as -> by congruence. destruct (H _ T) as (_ & R & _). intros x. rewrite <- (R x). cbn. intuition.
Qed.

(* A shared leaf is visited with the values of one of its ways only. *)
Definition shared_nodes : list node := [mkNode false 0 1 2; mkNode false 1 2 3; mkNode true (-1) (-1) (-1); mkNode false (-1) (-1) (-1)].
Example C57_shared_case : tests_once shared_nodes /\
  (exists it, newNodeAsValuesIter 2 shared_nodes = Ok it /\ tours it [(0, [0; 0]); (1, [ZERO; 0]); (2, [ZERO; ZERO]); (3, [ZERO; ONE])]) /\
  way shared_nodes [(0, ONE)] 2 /\ answers 2 [(0, ONE)] = [ONE; 0].
Proof.
  assert (W : forall p x, way shared_nodes p x -> (p = [] /\ x = 0) \/ (p = [(0, ZERO)] /\ x = 1) \/ (p = [(0, ONE)] /\ x = 2) \/
    (p = [(1, ZERO); (0, ZERO)] /\ x = 2) \/ (p = [(1, ONE); (0, ZERO)] /\ x = 3)).
  { induction 1 as [|p x n H IH Hx E L|p x n H IH Hx E L]; [auto| |];
      (destruct IH as [[-> ->]|[[-> ->]|[[-> ->]|[[-> ->]|[-> ->]]]]]; cbn in E; injection E as <-; try discriminate L; cbn; auto 7). }
  split; [|split; [|split; [|reflexivity]]].
  - intros p x H. destruct (W p x H) as [[-> _]|[[-> _]|[[-> _]|[[-> _]|[-> _]]]]]; cbn; repeat constructor; cbn; intuition discriminate.
  - eexists. split; [reflexivity|]. do 4 one_more. eapply To_end. reflexivity.
  - apply (way_one shared_nodes [] 0 (mkNode false 0 1 2)); try reflexivity; try lia; constructor.
Qed.
