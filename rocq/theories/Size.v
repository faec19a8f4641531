(* The size of encodings: clauses, literals, variables. *)
From Verif Require Import GoBase GoLemmas Cnf Query Walk Atoms Logop Spec Meaning CnfSem QueryLemmas Sym AtomBase AtomRest TreeLemmas WalkLemmas Form Master Ground AtomCnf Evolve Total Outcome Errors.
Local Open Scope string_scope.
Local Open Scope list_scope.

(* ---- specification ---- *)

Local Open Scope nat_scope.

(* Semantic clauses, their literals, consistency clauses, their literals, new
   CNF variables. *)
Record size := mkSize { zS : nat; zL : nat; zC : nat; zK : nat; zT : nat }.
Definition szero : size := mkSize 0 0 0 0 0.
Definition sadd (a b : size) : size := mkSize (zS a + zS b) (zL a + zL b) (zC a + zC b) (zK a + zK b) (zT a + zT b).
Definition smul (n : nat) (a : size) : size := mkSize (n * zS a) (n * zL a) (n * zC a) (n * zK a) (n * zT a).
Definition sneg (a : size) : size :=
  mkSize 1 1 (zC a + zL a + 2 * zS a + 1) (zK a + 3 * zL a + 4 * zS a + 1) (zT a + zS a + 1).
Definition sle (a b : size) : Prop := zS a <= zS b /\ zL a <= zL b /\ zC a <= zC b /\ zK a <= zK b /\ zT a <= zT b.

(* A counter (of undefined features or of a distance). *)
Definition counter (d : nat) : nat := 5 * (d * d) + 3 * d + 4.

(* Components: d features, n nodes. *)
Definition asize (d n : nat) (a : atom) : size :=
  match a with
  | SubsVV _ _ | ConsVV _ _ => mkSize (2 * d) (4 * d) 0 0 (4 * d)
  | SubsVC _ _ => mkSize (2 * d) (2 * d) 0 0 (2 * d)
  | SubsCV _ _ | ConsVC _ _ | ConsCV _ _ | FullV _ => mkSize d d 0 0 d
  | SubsCC _ _ | LelCC _ _ | NodeC _ | FullC _ | ConsCC _ _ | AllC _ _ | DfsC _ | HeprCC _ _ _ | LehCCC _ _ _ => mkSize 1 0 0 0 0
  | LelVV _ _ _ => mkSize d (d * d + d) (2 * counter d) (6 * counter d) (6 * counter d + d * d + d)
  | LelVC _ _ _ | LelCV _ _ _ => mkSize d d (counter d) (3 * counter d) (3 * counter d + d)
  | NodeV _ _ => mkSize d (d + n) (6 * n + 1) (18 * n + 1) (20 * n + 2 * d + 1)
  | AllV _ _ _ => mkSize n n (8 * n + 1) (24 * n + 1) (24 * n + 1)
  | DfsV _ => mkSize (n * n) (n * n * d) 0 0 (n * n * d)
  | HeprVV _ _ _ _ | HeprVC _ _ _ _ | HeprCV _ _ _ _ => mkSize 1 1 (6 * d) (18 * d) (18 * d + 1)
  | LehVVV _ _ _ _ _ => mkSize (d * d + 3 * d) (2 * (d * d) + 3 * d) (2 * counter d + 8 * d) (6 * counter d + 24 * d) (6 * counter d + 2 * (d * d) + 27 * d)
  | LehVVC _ _ _ _ _ | LehVCV _ _ _ _ _ =>
      mkSize (d * d + 2 * d + 1) (2 * (d * d) + 2 * d) (2 * counter d + 4 * d) (6 * counter d + 12 * d) (9 * counter d + 2 * (d * d) + 14 * d)
  | LehCVV _ _ _ _ => mkSize (d * d + 2 * d + 1) (2 * (d * d) + 2 * d) (2 * counter d) (6 * counter d) (6 * counter d + 2 * (d * d) + 2 * d)
  | LehVCC _ _ _ _ => mkSize (d * d + d + 1) (2 * (d * d) + d) (2 * counter d) (6 * counter d) (6 * counter d + 2 * (d * d) + d)
  | LehCVC _ _ _ _ | LehCCV _ _ _ _ => mkSize (2 * d + 1) (2 * d) (counter d) (3 * counter d) (3 * counter d + 2 * d)
  end.
Definition withsize (d : nat) : size := mkSize 0 0 (4 * d) (9 * d) (9 * d).
Fixpoint qsize (d n : nat) (q : query) : size :=
  match q with
  | QNil => szero
  | QAtom a => asize d n a
  | QNot q => sneg (qsize d n q)
  | QAnd q1 q2 => sadd (qsize d n q1) (qsize d n q2)
  | QOr q1 q2 => sneg (sadd (sneg (qsize d n q1)) (sneg (qsize d n q2)))
  | QWith _ q => sadd (withsize d) (qsize d n q)
  | QAll _ q => smul n (qsize d n q)
  end.

(* ---- sizes of lists of clauses ---- *)

Definition lits {A} (cls : list (list A)) : nat := length (concat cls).
Lemma lits_app : forall A (a b : list (list A)), lits (a ++ b) = lits a + lits b.
Proof. intros. unfold lits. now rewrite concat_app, app_length. Qed.
Lemma lits_cons : forall A (c : list A) l, lits (c :: l) = length c + lits l.
Proof. intros. unfold lits. simpl. now rewrite app_length. Qed.

(* At most n clauses of at most k literals. *)
Definition few {A} (k n : nat) (cls : list (list A)) : Prop := length cls <= n /\ Forall (fun c => length c <= k) cls.
Lemma few_lits : forall A k n (cls : list (list A)), few k n cls -> length cls <= n /\ lits cls <= k * n.
Proof.
  intros A k n cls [L F]. split; auto. assert (X : lits cls <= k * length cls).
  { clear L. induction F as [|c l H F IH]; [cbn; lia|]. rewrite lits_cons. cbn [length]. nia. }
  nia.
Qed.
Lemma few_app : forall A k n m (a b : list (list A)), few k n a -> few k m b -> few k (n + m) (a ++ b).
Proof. intros A k n m a b [A1 A2] [B1 B2]. split; [rewrite app_length; lia|apply Forall_app; auto]. Qed.
Lemma few_le : forall A k n m (a : list (list A)), few k n a -> n <= m -> few k m a.
Proof. intros A k n m a [A1 A2] H. split; auto. lia. Qed.
Lemma few_flat : forall A B k n m (f : B -> list (list A)) l, length l <= n -> (forall x, In x l -> few k m (f x)) -> few k (n * m) (flat_map f l).
Proof.
  intros A B k n m f l. revert n. induction l as [|x l IH]; intros n L H; [split; [simpl; lia|constructor]|]. destruct n as [|n]; [simpl in L; lia|].
  cbn [flat_map Nat.mul]. apply few_app; [apply H; simpl; auto|]. apply IH; [simpl in L; lia|]. intros y Hy. apply H. simpl. auto.
Qed.
Lemma few_map : forall A B k n (f : B -> list A) l, length l <= n -> (forall x, In x l -> length (f x) <= k) -> few k n (map f l).
Proof. intros A B k n f l L H. split; [now rewrite map_length|]. apply Forall_forall. intros c Hc. apply in_map_iff in Hc as (x & <- & Hx). auto. Qed.
Lemma few_concat_mapi : forall A B k m (f : Z -> B -> list (list A)) l i, (forall j x, In x l -> few k m (f j x)) -> few k (length l * m) (concat (mapi_from i f l)).
Proof.
  intros A B k m f l. induction l as [|x l IH]; intros i H; [split; [simpl; lia|constructor]|]. cbn [mapi_from concat length Nat.mul].
  apply few_app; [apply H; simpl; auto|]. apply IH. intros j y Hy. apply H. simpl. auto.
Qed.
Lemma few_const : forall A k (l : list (list A)), forallb (fun c => length c <=? k) l = true -> few k (length l) l.
Proof.
  intros A k l H. split; auto. apply Forall_forall. intros c Hc. rewrite forallb_forall in H. apply Nat.leb_le. auto.
Qed.
Lemma zrange_len : forall a b, length (zrange a b) = Z.to_nat (b - a).
Proof. intros. unfold zrange. now rewrite map_length, seq_length. Qed.

Ltac few_lit := match goal with |- few ?k _ ?l => eapply few_le; [apply (few_const _ k l); reflexivity|simpl; lia] end.

Lemma few_no_excess : forall d cv, few 1 (d * d) (no_excess (Z.of_nat d) cv).
Proof.
  intros d cv. unfold no_excess. apply few_flat; [rewrite zrange_len; lia|]. intros i Hi. apply In_zrange in Hi. apply few_map; [rewrite zrange_len; lia|].
  intros x _. simpl. lia.
Qed.
Lemma few_weaken : forall A k k' n (a : list (list A)), few k n a -> k <= k' -> few k' n a.
Proof. intros A k k' n a [A1 A2] H. split; auto. eapply Forall_impl; [|exact A2]. intros c Hc. cbn beta in *. lia. Qed.

Lemma few_count : forall d v cv, few 3 (counter d) (varBotCountClauses (Z.of_nat d) v cv).
Proof.
  intros d v cv. unfold varBotCountClauses, counter. eapply few_le.
  - apply (few_app _ 3 (d * (3 + d * 4)) (d * d + 4)); [|apply few_app; [eapply few_weaken; [apply few_no_excess|lia]|few_lit]].
    apply few_flat; [rewrite zrange_len; lia|]. intros i Hi. apply In_zrange in Hi. unfold count_row. apply few_app; [few_lit|].
    apply few_flat; [rewrite zrange_len; lia|]. intros j _. few_lit.
  - nia.
Qed.
Lemma few_hd : forall d hd e ne, few 3 (counter d) (hd_first hd e ne ++ flat_map (hd_row hd e ne) (zrange 1 (Z.of_nat d)) ++ no_excess (Z.of_nat d) hd).
Proof.
  intros d hd e ne. unfold counter. eapply few_le.
  - apply (few_app _ 3 4 (d * (3 + d * 4) + d * d)); [few_lit|]. apply few_app; [|eapply few_weaken; [apply few_no_excess|lia]].
    apply few_flat; [rewrite zrange_len; lia|]. intros i Hi. apply In_zrange in Hi. unfold hd_row. apply few_app; [few_lit|].
    apply few_flat; [rewrite zrange_len; lia|]. intros j _. few_lit.
  - nia.
Qed.
Lemma few_full : forall d v, few 1 d (full_v (Z.of_nat d) v).
Proof. intros d v. unfold full_v. apply few_map; [rewrite zrange_len; lia|]. simpl. lia. Qed.
Lemma few_equal : forall d v1 v2 ef, few 3 (4 * d) (fullVarEqualClauses (Z.of_nat d) v1 v2 ef).
Proof.
  intros d v1 v2 ef. unfold fullVarEqualClauses. eapply few_le; [apply few_flat with (n := d) (m := 4); [rewrite zrange_len; lia|intros i _; few_lit]|]. simpl. lia.
Qed.
Lemma few_leh : forall d a b, few 2 (d * d) (leh_sem (Z.of_nat d) a b).
Proof.
  intros d a b. unfold leh_sem. apply few_flat; [rewrite zrange_len; lia|]. intros i Hi. apply In_zrange in Hi. apply few_map; [rewrite zrange_len; lia|]. simpl. lia.
Qed.

(* ---- sizes of emissions ---- *)

Definition esize (e : emit) : size :=
  match e with
  | EAlloc l => mkSize 0 0 0 0 (length l)
  | EFrom cls | ESem cls => mkSize (length cls) (lits cls) 0 0 (lits cls)
  | ECons cls => mkSize 0 0 (length cls) (lits cls) (lits cls)
  end.
Definition essize (es : list emit) : size := fold_right (fun e z => sadd (esize e) z) szero es.

Definition within (f : CNF) (z : size) : Prop :=
  length (sClauses f) <= zS z /\ lits (sClauses f) <= zL z /\ length (cClauses f) <= zC z /\ lits (cClauses f) <= zK z.
Lemma within_le : forall f a b, within f a -> sle a b -> within f b.
Proof. unfold within, sle. intros. lia. Qed.

Lemma CNFVar_top : forall vm u n vm', CNFVar vm u = (n, vm') -> (vm_topv vm' <= vm_topv vm + 1)%Z.
Proof. intros vm u n vm' E. unfold CNFVar in E. destruct (vlookup _ _); injection E as <- <-; cbn; lia. Qed.
Lemma alloc_vars_top : forall l vm, (vm_topv (alloc_vars vm l) <= vm_topv vm + Z.of_nat (length l))%Z.
Proof.
  induction l as [|u l IH]; intros vm; cbn [alloc_vars length]; [lia|]. destruct (CNFVar vm u) as [n vm'] eqn:E. cbn [snd].
  pose proof (CNFVar_top _ _ _ _ E). pose proof (IH vm'). lia.
Qed.
Lemma alloc_clause_top : forall cl vm c vm', alloc_clause vm cl = (c, vm') -> length c = length cl /\ (vm_topv vm' <= vm_topv vm + Z.of_nat (length cl))%Z.
Proof.
  induction cl as [|[s u] cl IH]; intros vm c vm' E; cbn [alloc_clause] in E; [injection E as <- <-; cbn; lia|].
  destruct (CNFVar vm u) as [n vm1] eqn:E1. destruct (alloc_clause vm1 cl) as [r vm2] eqn:E2. injection E as <- <-.
  pose proof (CNFVar_top _ _ _ _ E1). destruct (IH _ _ _ E2). cbn [length]. lia.
Qed.
Lemma alloc_clauses_top : forall cls vm c vm', alloc_clauses vm cls = (c, vm') ->
  length c = length cls /\ lits c = lits cls /\ (vm_topv vm' <= vm_topv vm + Z.of_nat (lits cls))%Z.
Proof.
  induction cls as [|cl cls IH]; intros vm c vm' E; cbn [alloc_clauses] in E; [injection E as <- <-; cbn; lia|].
  destruct (alloc_clause vm cl) as [c1 vm1] eqn:E1. destruct (alloc_clauses vm1 cls) as [r vm2] eqn:E2. injection E as <- <-.
  destruct (alloc_clause_top _ _ _ _ E1). destruct (IH _ _ _ E2) as (? & ? & ?). rewrite !lits_cons. cbn [length]. lia.
Qed.

Lemma run_emit_size : forall e f vm f' vm' z, within f z -> run_emit (f, vm) e = (f', vm') ->
  within f' (sadd z (esize e)) /\ (vm_topv vm' <= vm_topv vm + Z.of_nat (zT (esize e)))%Z.
Proof.
  intros e f vm f' vm' z W E. unfold within in *. destruct e as [l|cls|cls|cls]; cbn [run_emit] in E.
  - injection E as <- <-. cbn. split; [lia|]. apply alloc_vars_top.
  - destruct (alloc_clauses vm cls) as [c v'] eqn:EA. injection E as <- <-. destruct (alloc_clauses_top _ _ _ _ EA) as (? & ? & ?). 
    cbn [FromClauses sClauses cClauses esize sadd zS zL zC zK zT] in *. change (lits (@nil clause)) with 0. cbn [length]. lia.
  - destruct (alloc_clauses vm cls) as [c v'] eqn:EA. injection E as <- <-. destruct (alloc_clauses_top _ _ _ _ EA) as (? & ? & ?).
    cbn [AppendSemantics sClauses cClauses]. rewrite app_length, lits_app. cbn in *. lia.
  - destruct (alloc_clauses vm cls) as [c v'] eqn:EA. injection E as <- <-. destruct (alloc_clauses_top _ _ _ _ EA) as (? & ? & ?).
    cbn [AppendConsistency sClauses cClauses]. rewrite app_length, lits_app. cbn in *. lia.
Qed.
Lemma run_size : forall es vm f vm', run_emits vm es = (f, vm') -> within f (essize es) /\ (vm_topv vm' <= vm_topv vm + Z.of_nat (zT (essize es)))%Z.
Proof.
  intros es. unfold run_emits. assert (G : forall es f0 vm f vm' z, within f0 z -> fold_left run_emit es (f0, vm) = (f, vm') ->
    within f (sadd z (essize es)) /\ (vm_topv vm' <= vm_topv vm + Z.of_nat (zT (essize es)))%Z).
  { clear. induction es as [|e es IH]; intros f0 vm f vm' z W E; cbn [fold_left] in E.
    - injection E as <- <-. split; [|cbn; lia]. eapply within_le; [exact W|]. unfold sle. cbn. lia.
    - destruct (run_emit (f0, vm) e) as [f1 vm1] eqn:E1. destruct (run_emit_size _ _ _ _ _ _ W E1) as [W1 T1].
      destruct (IH _ _ _ _ _ W1 E) as [W2 T2]. split.
      + eapply within_le; [exact W2|]. unfold sle. cbn [essize fold_right sadd zS zL zC zK zT]. fold (essize es). lia.
      + cbn [essize fold_right sadd zT] in *. fold (essize es). lia. }
  intros vm f vm' E. destruct (G es TrueCNF vm f vm' szero) as [A B]; auto.
  unfold within. cbn. unfold lits. cbn. lia.
Qed.

Lemma essize_app : forall a b, essize (a ++ b) = sadd (essize a) (essize b).
Proof.
  induction a as [|e a IH]; intros b; [cbn [app]; change (essize []) with szero; destruct (essize b); reflexivity|]. cbn [app essize fold_right]. fold (essize (a ++ b)). fold (essize a).
  rewrite IH. unfold sadd. cbn. f_equal; lia.
Qed.
Lemma essize_sem : forall (cls : list sclause), essize (map (fun cl : sclause => ESem [cl]) cls) = mkSize (length cls) (lits cls) 0 0 (lits cls).
Proof.
  induction cls as [|c cls IH]; [reflexivity|]. cbn [map essize fold_right]. fold (essize (map (fun cl => ESem [cl]) cls)). rewrite IH.
  unfold sadd. cbn [esize zS zL zC zK zT]. rewrite !lits_cons. unfold lits at 1 3. cbn [concat length]. rewrite ?app_nil_r. f_equal; cbn; lia.
Qed.
(* Emissions that each hold few clauses. *)
Lemma essize_concat : forall B (f : Z -> B -> list emit) z l i, (forall j x, In x l -> sle (essize (f j x)) z) ->
  sle (essize (concat (mapi_from i f l))) (smul (length l) z).
Proof.
  intros B f z l. induction l as [|x l IH]; intros i H; [unfold sle; cbn; lia|]. cbn [mapi_from concat length]. rewrite essize_app.
  pose proof (H i x (or_introl eq_refl)) as H1. pose proof (IH (i + 1)%Z (fun j y Hy => H j y (or_intror Hy))) as H2.
  unfold sle in *. cbn [sadd smul zS zL zC zK zT] in *. lia.
Qed.
Lemma essize_map : forall B (f : B -> emit) z l, (forall x, In x l -> sle (esize (f x)) z) -> sle (essize (map f l)) (smul (length l) z).
Proof.
  intros B f z l. induction l as [|x l IH]; intros H; [unfold sle; cbn; lia|]. cbn [map length essize fold_right]. fold (essize (map f l)).
  pose proof (H x (or_introl eq_refl)) as H1. pose proof (IH (fun y Hy => H y (or_intror Hy))) as H2.
  unfold sle in *. cbn [sadd smul zS zL zC zK zT] in *. lia.
Qed.

(* ---- sizes of the components ---- *)

Lemma few_subs_vc : forall v val, few 1 (2 * length val) (subs_vc v val).
Proof.
  intros. unfold subs_vc, mapi. rewrite Nat.mul_comm. apply few_concat_mapi. intros j x _. destruct (x =? ONE)%Z; [few_lit|]. destruct (x =? ZERO)%Z; few_lit.
Qed.
Lemma few_subs_cv : forall v val, few 1 (length val) (subs_cv val v).
Proof.
  intros. unfold subs_cv, mapi. rewrite <- (Nat.mul_1_r (length val)). apply few_concat_mapi. intros j x _. destruct (negb (x =? BOT)%Z); few_lit.
Qed.
Lemma few_cons_vc : forall v val, few 1 (length val) (cons_vc v val).
Proof.
  intros. unfold cons_vc, mapi. rewrite <- (Nat.mul_1_r (length val)). apply few_concat_mapi. intros j x _. destruct (x =? BOT)%Z; few_lit.
Qed.
Lemma few_subs_vv : forall d v1 v2, few 2 (2 * d) (subs_vv (Z.of_nat d) v1 v2).
Proof. intros. unfold subs_vv. rewrite Nat.mul_comm. apply few_flat; [rewrite zrange_len; lia|]. intros. few_lit. Qed.
Lemma few_cons_vv : forall d v1 v2, few 2 (2 * d) (cons_vv (Z.of_nat d) v1 v2).
Proof. intros. unfold cons_vv. rewrite Nat.mul_comm. apply few_flat; [rewrite zrange_len; lia|]. intros. few_lit. Qed.
Lemma few_lel_vv : forall d c1 c2, few (d + 1) d (lel_vv_sem (Z.of_nat d) c1 c2).
Proof.
  intros. unfold lel_vv_sem. apply few_map; [rewrite zrange_len; lia|]. intros i Hi. apply In_zrange in Hi. cbn [length]. rewrite map_length, zrange_len. lia.
Qed.
Lemma BotCount_le : forall c, (0 <= BotCount c <= Z.of_nat (length (cVal c)))%Z.
Proof.
  intros c. unfold BotCount. assert (G : forall l a, (a <= fold_left (fun b ft => if ft =? BOT then b + 1 else b) l a <= a + Z.of_nat (length l))%Z).
  { induction l as [|x l IH]; intros a; cbn [fold_left length]; [lia|]. destruct (x =? BOT)%Z.
    - pose proof (IH (a + 1)%Z). lia.
    - pose proof (IH a). lia. }
  pose proof (G (cVal c) 0%Z). lia.
Qed.
Lemma hammingDistCC_le : forall a b, (0 <= hammingDistCC a b <= Z.of_nat (length a))%Z.
Proof.
  intros a b. unfold hammingDistCC. assert (G : forall (l : list (Z * Z)) k, (k <= fold_left (fun hd p => if negb (fst p =? snd p) then hd + 1 else hd) l k <= k + Z.of_nat (length l))%Z).
  { induction l as [|x l IH]; intros k; cbn [fold_left length]; [lia|]. destruct (negb (fst x =? snd x)%Z).
    - pose proof (IH (k + 1)%Z). lia.
    - pose proof (IH k). lia. }
  pose proof (G (combine a b) 0%Z). pose proof (combine_length a b). lia.
Qed.

Lemma list_set_lits : forall A (l : list (list A)) k c c', nth_error l k = Some c -> lits (list_set l k c') + length c = lits l + length c'.
Proof.
  induction l as [|x l IH]; intros [|k] c c' H; simpl in H; try discriminate; cbn [list_set]; rewrite !lits_cons.
  - injection H as ->. lia.
  - pose proof (IH _ _ c' H). lia.
Qed.
Lemma sget_some : forall A (l : list A) i a, sget l i = Ok a -> nth_error l (Z.to_nat i) = Some a /\ (0 <= i)%Z.
Proof.
  intros A l i a H. unfold sget in H. destruct (i <? 0)%Z eqn:L; [discriminate|]. destruct (nth_error l (Z.to_nat i)); [|discriminate]. injection H as ->.
  split; auto. lia.
Qed.
Lemma sset_some : forall A (l l' : list A) i a, sset l i a = Ok l' -> l' = list_set l (Z.to_nat i) a.
Proof. intros A l l' i a H. unfold sset in H. destruct (i <? 0)%Z; [discriminate|]. destruct (_ <? _); [|discriminate]. congruence. Qed.
Lemma isnode_fcl_size : forall d nodes v r fcl, isnode_fcl (Z.of_nat d) nodes v r = Ok fcl -> length fcl = d /\ lits fcl <= d + length nodes.
Proof.
  intros d nodes v r fcl. unfold isnode_fcl, mapi.
  assert (G : forall nodes i acc fcl, fold_left (isnode_fcl_step r) (mapi_from i pair nodes) acc = Ok fcl ->
    exists f0, acc = Ok f0 /\ length fcl = length f0 /\ lits fcl <= lits f0 + length nodes).
  { clear. induction nodes as [|n nodes IH]; intros i acc fcl E; cbn [mapi_from fold_left] in E; [exists fcl; cbn; repeat split; auto; lia|].
    destruct (IH _ _ _ E) as (f1 & E1 & L1 & T1). unfold isnode_fcl_step in E1. destruct acc as [f0|e| |]; cbn [rbind] in E1; try discriminate.
    exists f0. split; auto. cbn [length]. destruct (IsLeaf n); [injection E1 as <-; lia|].
    destruct (sget f0 (nFeat n)) as [cl|e| |] eqn:EG; cbn [rbind] in E1; try discriminate. destruct (sget_some _ _ _ _ EG) as [NG _].
    apply sset_some in E1. subst f1. rewrite list_set_length in L1.
    pose proof (list_set_lits _ _ _ _ (cl ++ [Lp r 0 i]) NG) as X. rewrite app_length in X. cbn [length] in X. unfold sclause, slit in *. lia. }
  intros E. destruct (G _ _ _ _ E) as (f0 & [= <-] & L & T). rewrite map_length, zrange_len in L.
  assert (F : few 1 d (map (fun i => [Lp v i BOT]) (zrange 0 (Z.of_nat d)))) by (apply few_map; [rewrite zrange_len; lia|simpl; lia]).
  apply few_lits in F. lia.
Qed.
Lemma isnode_alloc_size : forall d nodes v r, length (isnode_fcl_alloc (Z.of_nat d) nodes v r) <= d + length nodes.
Proof.
  intros. unfold isnode_fcl_alloc, mapi. rewrite app_length, map_length, zrange_len.
  assert (G : forall i, length (concat (mapi_from i (fun i n => if IsLeaf n then [] else [(r, 0%Z, i)]) nodes)) <= length nodes).
  { induction nodes as [|n nodes IH]; intros i; [cbn; lia|]. cbn [mapi_from concat length]. rewrite app_length. pose proof (IH (i + 1)%Z). destruct (IsLeaf n); cbn [length]; lia. }
  pose proof (G 0%Z). lia.
Qed.

Lemma leafs_size : forall dim nodes p n, leafsAsConsts dim nodes = Ok (p, n) -> length p + length n <= length nodes.
Proof.
  intros dim nodes p n E. unfold leafsAsConsts in E. destruct (validateNodes _ _ _); [discriminate|].
  destruct (lw_loop _ _ _) as [s| | |] eqn:EL; cbn [rbind] in E; try discriminate. injection E as <- <-.
  set (inv := fun s => length (lw_pos s) + length (lw_neg s) + unvisited (lw_walk s) <= length nodes).
  assert (BK : forall s o, inv s -> lw_backup nodes s = Ok o -> match o with inl s' => inv s' | inr s' => inv s' end).
  { intros s0 o I E. unfold lw_backup in E. destruct (lw_cp s0 =? 0)%Z; [injection E as <-; auto|].
    destruct (sget (lw_walk s0) (lw_cp s0)); cbn [rbind] in E; try discriminate. destruct (sget nodes _); cbn [rbind] in E; try discriminate.
    destruct (sset (lw_cv s0) _ _); cbn [rbind] in E; try discriminate. injection E as <-. exact I. }
  assert (SW : forall w k a b w', sget w k = Ok a -> sset w k b = Ok w' -> (unvisited w' + (if wvisited a then 0 else 1) = unvisited w + (if wvisited b then 0 else 1))).
  { intros w k a b w' EG ES. destruct (sget_some _ _ _ _ EG) as [NG _]. apply sset_some in ES. subst w'. now apply unvisited_set. }
  assert (DN : forall s n0 ch v o, inv s -> lw_descend s n0 ch v = Ok o -> match o with inl s' => inv s' | inr s' => inv s' end).
  { intros s0 n0 ch v o I E. unfold lw_descend in E. destruct (sset (lw_cv s0) _ _); cbn [rbind] in E; try discriminate.
    destruct (sget (lw_walk s0) ch) as [w| | |] eqn:EG; cbn [rbind] in E; try discriminate. destruct (sset (lw_walk s0) ch _) as [w'| | |] eqn:ES; cbn [rbind] in E; try discriminate.
    injection E as <-. pose proof (SW _ _ _ _ _ EG ES) as X. cbn [wvisited] in X. unfold inv in *. cbn [lw_pos lw_neg lw_walk]. lia. }
  assert (ST : forall s o, inv s -> lw_step nodes s = Ok o -> match o with inl s' => inv s' | inr s' => inv s' end).
  { intros s0 o I E. unfold lw_step in E. destruct (sget (lw_walk s0) (lw_cp s0)) as [w| | |] eqn:EG; cbn [rbind] in E; try discriminate.
    destruct (wvisited w) eqn:V.
    - destruct (sget nodes (lw_cp s0)) as [n0| | |]; cbn [rbind] in E; try discriminate. destruct (IsLeaf n0); [eapply BK; eauto|].
      destruct (sget (lw_walk s0) (zChild n0)) as [zw| | |]; cbn [rbind] in E; try discriminate. destruct (negb (wvisited zw)); [eapply DN; eauto|].
      destruct (sget (lw_walk s0) (oChild n0)) as [ow| | |]; cbn [rbind] in E; try discriminate. destruct (negb (wvisited ow)); [eapply DN; eauto|eapply BK; eauto].
    - destruct (sset (lw_walk s0) (lw_cp s0) _) as [w'| | |] eqn:ES; cbn [rbind] in E; try discriminate.
      pose proof (SW _ _ _ _ _ EG ES) as X. rewrite V in X. cbn [wvisited] in X.
      destruct (sget nodes (lw_cp s0)) as [n0| | |]; cbn [rbind] in E; try discriminate.
      destruct (negb (IsLeaf n0)); [|destruct (nValue n0)]; injection E as <-; unfold inv in *; cbn [lw_pos lw_neg lw_walk]; rewrite ?app_length; cbn [length]; lia. }
  assert (LP : forall fuel s s', inv s -> lw_loop fuel nodes s = Ok s' -> inv s').
  { induction fuel as [|fuel IH]; intros s0 s' I E; cbn [lw_loop] in E; [discriminate|]. destruct (lw_step nodes s0) as [o| | |] eqn:E1; cbn [rbind] in E; try discriminate.
    pose proof (ST _ _ I E1) as I1. destruct o as [s1|s1]; [eauto|]. injection E as <-. exact I1. }
  assert (I : inv s). { eapply LP; [|exact EL]. unfold inv. cbn [lw_pos lw_neg lw_walk]. rewrite unvisited_repeat. cbn. lia. }
  unfold inv in I. lia.
Qed.
Lemma dfs_size : forall dim v pairs cls, dfs_var_loop dim v pairs = Ok cls -> few dim (length pairs) cls.
Proof.
  induction pairs as [|[p n] pairs IH]; intros cls E; cbn [dfs_var_loop] in E; [injection E as <-; split; [cbn; lia|constructor]|].
  destruct (notAWitnessClause dim v p n) as [cl| | |] eqn:EN; cbn [rbind] in E; try discriminate.
  destruct (dfs_var_loop dim v pairs) as [r| | |] eqn:ER; cbn [rbind] in E; try discriminate. injection E as <-. destruct (IH r eq_refl) as [A B].
  split; [cbn [length]; lia|]. constructor; auto. unfold notAWitnessClause in EN. destruct (_ || _)%bool; [discriminate|]. injection EN as <-.
  assert (G : forall l, length (flat_map (fun i => let a := vget (cVal p) i in let b := vget (cVal n) i in
             if (negb (a =? BOT) && negb (b =? BOT) && negb (a =? b))%Z%bool then [Ln v i BOT] else []) l) <= length l).
  { induction l as [|x l IHl]; cbn [flat_map length]; [lia|]. rewrite app_length. cbv zeta in *. destruct (_ && _)%bool; cbn [length]; lia. }
  eapply Nat.le_trans; [apply G|]. rewrite zrange_len. lia.
Qed.
Lemma pref_short : forall pref dim, validatePref pref dim = None -> length pref <= dim.
Proof.
  intros pref dim H. apply validatePref_ok in H as [F N]. rewrite <- (Nat2Z.id dim), <- (Z.sub_0_r (Z.of_nat dim)), <- zrange_len.
  apply NoDup_incl_length; auto. intros i Hi. rewrite Forall_forall in F. apply In_zrange. apply F in Hi. unfold in_range in Hi. lia.
Qed.

Ltac szlia := unfold sclause in *; lia.
Ltac sznia := unfold sclause in *; nia.
Definition osize (o : aout) : size := match o with ABool _ => mkSize 1 0 0 0 0 | AEmit es => essize es end.

Ltac know x pf := let H := fresh "F" in pose proof (few_lits _ _ _ _ pf) as H; generalize dependent x; intros.
Lemma first_inv : forall B n (k : res B) o, first_feat n k = Ok o -> k = Ok o.
Proof. intros B [|n] k o H; [discriminate|exact H]. Qed.
Lemma nonempty_inv : forall A B (l : list A) (b : res B) e o, match l with [] => Err e | _ :: _ => b end = Ok o -> b = Ok o.
Proof. intros A B [|x l] b e o H; [discriminate|exact H]. Qed.
Ltac not_empty E := apply nonempty_inv in E.
Ltac enc_case E :=
  repeat match type of E with
  | _ => not_empty E; try discriminate E
  | context [ScopeVar ?s ?v] => let EV := fresh "EV" in destruct (ScopeVar s v) eqn:EV; cbn [rbind] in E; try discriminate E
  | guard ?o _ = _ => let G := fresh "G" in destruct o eqn:G; cbn [guard] in E; try discriminate E
  | need ?o _ _ = _ => let g := fresh "g" in destruct o as [g|]; cbn [need] in E; try discriminate E
  | (if ?b then _ else _) = Ok _ => match type of b with bool => destruct b; try discriminate E end
  | first_feat _ _ = _ => apply first_inv in E; cbv zeta in E
  end.
Ltac sizes := unfold sle; cbn [osize]; rewrite ?essize_app, ?essize_sem; cbn [app essize fold_right sadd esize szero zS zL zC zK zT asize osize];
  change (fold_right (fun e z => sadd (esize e) z) szero) with essize; rewrite ?essize_sem; cbn [zS zL zC zK zT].

Lemma validate_lens : forall d l, ValidateConstsDim d l = None -> Forall (fun k => length (cVal k) = d) l.
Proof. intros d l H. now apply validate_iff in H. Qed.

Lemma hd_vc_few : forall d v val hd, few 3 (counter d) (hammingDistVC (Z.of_nat d) v val hd).
Proof. intros. apply few_hd. Qed.
Lemma hd_vv_few : forall d hd ef, few 3 (counter d) (hammingDistVV (Z.of_nat d) hd ef).
Proof. intros. apply few_hd. Qed.
Lemma clause_vars_length : forall cls, length (clause_vars cls) = lits cls.
Proof. intros. unfold clause_vars, lits. apply map_length. Qed.
Lemma units_few : forall (f : Z -> slit) l, few 1 (length l) (map (fun i => [f i]) l).
Proof. intros. apply few_map; auto. Qed.

Lemma sle_refl : forall a, sle a a.
Proof. intros a. unfold sle. lia. Qed.
Lemma sle_trans : forall a b c, sle a b -> sle b c -> sle a c.
Proof. unfold sle. lia. Qed.
Lemma few_lel_vc : forall d cv c, length (cVal c) = d -> few 1 d (lel_vc_sem (Z.of_nat d) cv c).
Proof. intros d cv c H. unfold lel_vc_sem. pose proof (BotCount_le c). apply few_map; [rewrite zrange_len; lia|simpl; lia]. Qed.
Lemma few_lel_cv : forall d cv c, length (cVal c) = d -> few 1 d (lel_cv_sem (Z.of_nat d) cv c).
Proof. intros d cv c H. unfold lel_cv_sem. pose proof (BotCount_le c). apply few_map; [rewrite zrange_len; lia|simpl; lia]. Qed.
Lemma essize_units : forall (f : Z -> slit) l, essize (map (fun i => ESem [[f i]]) l) = mkSize (length l) (length l) 0 0 (length l).
Proof.
  intros f l. rewrite <- (map_map (fun i => [f i]) (fun cl : sclause => ESem [cl])), essize_sem. rewrite map_length. f_equal; (induction l as [|x l IH]; [reflexivity|]; cbn [map]; rewrite lits_cons, IH; reflexivity).
Qed.

Lemma hepr_size : forall (first : list emit) (f : Z -> emit) h d plen, sle (essize first) (mkSize 0 0 6 18 18) -> (forall i, sle (esize (f i)) (mkSize 0 0 6 18 18)) ->
  1 <= plen <= d -> sle (essize (first ++ map f (hepr_idxs (Z.of_nat plen)) ++ [ESem [[Lp h 0 0]]])) (mkSize 1 1 (6 * d) (18 * d) (18 * d + 1)).
Proof.
  intros first f h d plen F G L. rewrite !essize_app.
  pose proof (essize_map _ f (mkSize 0 0 6 18 18) (hepr_idxs (Z.of_nat plen)) (fun x _ => G x)) as X.
  assert (H : length (hepr_idxs (Z.of_nat plen)) = plen - 1) by (unfold hepr_idxs; rewrite rev_length, zrange_len; lia). rewrite H in X.
  unfold sle in *. generalize dependent (essize (map f (hepr_idxs (Z.of_nat plen)))). intros z X.
  generalize dependent (essize first). intros y F.
  cbn [essize fold_right sadd esize szero smul zS zL zC zK zT length] in *. change (lits [[Lp h 0 0]]) with 1. lia.
Qed.
Ltac leh_case d := sizes; rewrite ?clause_vars_length;
  repeat match goal with
  | |- context [full_v ?x ?v] => know (full_v x v) (few_full d v)
  | |- context [fullVarEqualClauses ?x ?v ?w ?e] => know (fullVarEqualClauses x v w e) (few_equal d v w e)
  | |- context [hammingDistVV ?x ?v ?w] => know (hammingDistVV x v w) (hd_vv_few d v w)
  | |- context [hammingDistVC ?x ?v ?w ?h] => know (hammingDistVC x v w h) (hd_vc_few d v w h)
  | |- context [leh_sem ?x ?v ?w] => know (leh_sem x v w) (few_leh d v w)
  end; szlia.
Lemma Ok_inj : forall A (a b : A), Ok a = Ok b -> b = a.
Proof. congruence. Qed.
Lemma atom_size : forall c a o, atom_enc c a = Ok o -> sle (osize o) (asize (Dim (cModel c)) (length (Nodes (cModel c))) a).
Proof.
  intros c a o E. set (d := Dim (cModel c)) in *. set (n := length (Nodes (cModel c))) in *.
  destruct a; cbn [atom_enc] in E; fold d in E.
  - (* SubsVV *) enc_case E. apply Ok_inj in E; subst o. sizes. know (subs_vv (Z.of_nat d) a a0) (few_subs_vv d a a0). szlia.
  - (* SubsVC *) enc_case E. apply Ok_inj in E; subst o. apply validate_lens, Forall_inv in G. sizes.
    match goal with |- context [subs_vc ?v ?l] => know (subs_vc v l) (few_subs_vc v l) end. szlia.
  - (* SubsCV *) enc_case E. apply Ok_inj in E; subst o. apply validate_lens, Forall_inv in G. sizes.
    match goal with |- context [subs_cv ?l ?v] => know (subs_cv l v) (few_subs_cv v l) end. szlia.
  - enc_case E. apply Ok_inj in E; subst o. sizes. szlia.
  - (* LelVV *) enc_case E. apply Ok_inj in E; subst o. sizes.
    know (varBotCountClauses (Z.of_nat d) a (g0 a)) (few_count d a (g0 a)). know (varBotCountClauses (Z.of_nat d) a0 (g0 a0)) (few_count d a0 (g0 a0)).
    know (lel_vv_sem (Z.of_nat d) (g0 a) (g0 a0)) (few_lel_vv d (g0 a) (g0 a0)). sznia.
  - (* LelVC *) enc_case E. apply Ok_inj in E; subst o. apply validate_lens, Forall_inv in G. cbn [osize]. change (?x :: map ?f ?l) with ([x] ++ map f l). sizes.
    know (varBotCountClauses (Z.of_nat d) a (g0 a)) (few_count d a (g0 a)).
    match goal with |- context [lel_vc_sem ?x ?r ?k] => know (lel_vc_sem x r k) (few_lel_vc d r k G) end. szlia.
  - (* LelCV *) enc_case E. apply Ok_inj in E; subst o. apply validate_lens, Forall_inv in G. cbn [osize]. change (?x :: map ?f ?l) with ([x] ++ map f l). sizes.
    know (varBotCountClauses (Z.of_nat d) a (g0 a)) (few_count d a (g0 a)).
    match goal with |- context [lel_cv_sem ?x ?r ?k] => know (lel_cv_sem x r k) (few_lel_cv d r k G) end. szlia.
  - enc_case E. apply Ok_inj in E; subst o. sizes. szlia.
  - (* NodeV *) enc_case E.
    destruct (isnode_fcl _ _ _ _) as [fcl| | |] eqn:EF; cbn [rbind] in E; try discriminate. apply Ok_inj in E; subst o.
    apply isnode_fcl_size in EF as [F1 F2]. pose proof (isnode_alloc_size d (Nodes (cModel c)) a (g0 a)) as F3. fold n in F2, F3.
    cbn [osize]. rewrite !essize_app.
    match goal with |- context [concat (mapi ?f ?l)] => pose proof (essize_concat _ f (mkSize 0 0 6 18 18) l 0) as X; change (mapi_from 0 f l) with (mapi f l) in X end.
    fold n in X. match type of X with ?P -> _ => assert (Y : P) end.
    { intros j x _. destruct (IsLeaf x) eqn:EL; [unfold sle; cbn; lia|]. unfold isnode_reach. rewrite EL. unfold sle. cbn. lia. }
    specialize (X Y). unfold sle in *. match type of X with context [essize ?z] => generalize dependent (essize z) end. intros z X.
    cbn [app essize fold_right sadd esize szero smul zS zL zC zK zT asize length] in *. change (lits [[Lp (g0 a) 0 0]]) with 1. szlia.
  - (* NodeC *) enc_case E. unfold rbool in E. destruct (isnode_const _ _ _); cbn [rbind] in E; try discriminate. apply Ok_inj in E; subst o. sizes. szlia.
  - (* FullV *) enc_case E. apply Ok_inj in E; subst o. sizes. know (full_v (Z.of_nat d) a) (few_full d a). szlia.
  - enc_case E. apply Ok_inj in E; subst o. sizes. szlia.
  - (* ConsVV *) enc_case E. apply Ok_inj in E; subst o. sizes. know (cons_vv (Z.of_nat d) a a0) (few_cons_vv d a a0). szlia.
  - enc_case E. apply Ok_inj in E; subst o. apply validate_lens, Forall_inv in G. sizes.
    match goal with |- context [cons_vc ?v ?l] => know (cons_vc v l) (few_cons_vc v l) end. szlia.
  - enc_case E. apply Ok_inj in E; subst o. apply validate_lens, Forall_inv in G. sizes.
    match goal with |- context [cons_vc ?v ?l] => know (cons_vc v l) (few_cons_vc v l) end. szlia.
  - enc_case E. apply Ok_inj in E; subst o. sizes. szlia.
  - (* AllV *) enc_case E. apply Ok_inj in E; subst o.
    cbn [osize]. change (?x :: concat ?l) with ([x] ++ concat l). rewrite !essize_app.
    match goal with |- context [concat (mapi ?f ?l)] => pose proof (essize_concat _ f (mkSize 1 1 8 24 24) l 0) as X; change (mapi_from 0 f l) with (mapi f l) in X end.
    fold n in X. match type of X with ?P -> _ => assert (Y : P) end.
    { intros j x _. unfold allcomp_node. destruct (IsLeaf x) eqn:EL; [|unfold sle; cbn; lia]. destruct (eqb (nValue x) b); unfold sle; cbn; lia. }
    specialize (X Y). unfold sle in *. match type of X with context [essize ?z] => generalize dependent (essize z) end. intros z X.
    cbn [app essize fold_right sadd esize szero smul zS zL zC zK zT asize length] in *. change (lits [[Lp (g0 a) 0 0]]) with 1. szlia.
  - (* AllC *) enc_case E. unfold rbool in E. destruct (allcomp_const _ _ _ _); cbn [rbind] in E; try discriminate. apply Ok_inj in E; subst o. sizes. szlia.
  - (* DfsV *) enc_case E. destruct (leafsAsConsts _ _) as [[p ng]| | |] eqn:EL; cbn [rbind] in E; try discriminate. enc_case E.
    destruct (dfs_var_loop _ _ _) as [cls| | |] eqn:ED; cbn [rbind] in E; try discriminate. apply Ok_inj in E; subst o.
    apply leafs_size in EL. fold n in EL. apply dfs_size, few_lits in ED. rewrite prod_length in ED. sizes.
    assert (length p * length ng <= n * n) by (apply Nat.mul_le_mono; lia). sznia.
  - (* DfsC *) enc_case E. destruct (leafsAsConsts _ _) as [[p ng]| | |]; cbn [rbind] in E; try discriminate. enc_case E.
    unfold rbool in E. destruct (dfs_const_loop _ _); cbn [rbind] in E; try discriminate. apply Ok_inj in E; subst o. sizes. szlia.
  - (* HeprVV *) enc_case E. apply pref_short in G. destruct pref as [|p0 pr] eqn:EP; [discriminate|]. rewrite <- EP in *. apply Ok_inj in E; subst o. cbn [osize asize].
    unfold hepr_vv. cbv zeta. apply hepr_size; [unfold sle; cbn; lia|intros; unfold sle; cbn; lia|rewrite EP in *; cbn [length] in *; lia].
  - (* HeprVC *) enc_case E. apply pref_short in G. destruct pref as [|p0 pr] eqn:EP; [discriminate|]. rewrite <- EP in *. apply Ok_inj in E; subst o. cbn [osize asize].
    unfold hepr_vc. cbv zeta. apply hepr_size; [destruct (negb _); unfold sle; cbn; lia|intros; destruct (negb _); unfold sle; cbn; lia|rewrite EP in *; cbn [length] in *; lia].
  - (* HeprCV *) enc_case E. apply pref_short in G. destruct pref as [|p0 pr] eqn:EP; [discriminate|]. rewrite <- EP in *. apply Ok_inj in E; subst o. cbn [osize asize].
    unfold hepr_cv. cbv zeta. apply hepr_size; [destruct (negb _); unfold sle; cbn; lia|intros; destruct (negb _); unfold sle; cbn; lia|rewrite EP in *; cbn [length] in *; lia].
  - enc_case E. apply Ok_inj in E; subst o. sizes. szlia.
  - (* LehVVV *) enc_case E. apply Ok_inj in E; subst o. leh_case d.
  - (* LehVVC *) enc_case E; apply Ok_inj in E; subst o; leh_case d.
  - (* LehVCV *) enc_case E; apply Ok_inj in E; subst o; leh_case d.
  - (* LehCVV *) enc_case E; apply Ok_inj in E; subst o; leh_case d.
  - (* LehVCC *) enc_case E; apply Ok_inj in E; subst o; leh_case d.
  - (* LehCVC *) enc_case E; apply Ok_inj in E; subst o; try (leh_case d). apply validate_lens, Forall_inv in G.
    pose proof (hammingDistCC_le (cVal (fst (ScopeConst (cScoper c) c1))) (cVal (fst (ScopeConst (cScoper c) c2)))) as H. rewrite G in H.
    cbn [osize]. rewrite essize_app, essize_units, zrange_len. leh_case d.
  - (* LehCCV *) enc_case E; apply Ok_inj in E; subst o; try (leh_case d). apply validate_lens, Forall_inv in G.
    pose proof (hammingDistCC_le (cVal (fst (ScopeConst (cScoper c) c1))) (cVal (fst (ScopeConst (cScoper c) c2)))) as H. rewrite G in H.
    cbn [osize]. rewrite essize_app, essize_units, zrange_len. leh_case d.
  - enc_case E; apply Ok_inj in E; subst o; sizes; szlia.
Qed.

(* ---- negation and conjunction ---- *)

Lemma within_Conj : forall f g a b, within f a -> within g b -> within (Conjunction f g) (sadd a b).
Proof.
  intros f g a b. unfold within, Conjunction. cbn [AppendSemantics AppendConsistency sClauses cClauses sadd zS zL zC zK]. rewrite !app_length, !lits_app. lia.
Qed.
Lemma lits_map2 : forall A B (f g : A -> B) l, lits (map (fun x => [f x; g x]) l) = 2 * length l.
Proof. intros. induction l as [|x l IH]; [reflexivity|]. cbn [map]. rewrite lits_cons, IH. cbn [length]. lia. Qed.
Lemma tseytin_size : forall scls k cls encs,
  match tseytin_loop scls k cls encs with
  | inl k' => (k' <= k + Z.of_nat (length scls))%Z
  | inr (k', cls', encs') => (k' <= k + Z.of_nat (length scls))%Z /\ length encs' = length encs + length scls /\
      length cls' <= length cls + lits scls + length scls /\ lits cls' <= lits cls + 3 * lits scls + length scls
  end.
Proof.
  induction scls as [|cl scls IH]; intros k cls encs; cbn [tseytin_loop]; [change (lits (@nil clause)) with 0; cbn [length]; lia|].
  destruct cl as [|l [|l2 cl]]; [cbn [length]; lia| |].
  - specialize (IH k cls (encs ++ [(- l)%Z])). destruct (tseytin_loop _ _ _ _) as [k'|[[k' cls'] encs']]; rewrite ?lits_cons; rewrite ?app_length in *; cbn [length] in *; lia.
  - cbv zeta. set (c0 := l :: l2 :: cl) in *.
    specialize (IH (k + 1)%Z ((cls ++ map (fun lit => [- lit; - (k + 1)]%Z) c0) ++ [c0 ++ [(k + 1)%Z]]) (encs ++ [(k + 1)%Z])).
    destruct (tseytin_loop _ _ _ _) as [k'|[[k' cls'] encs']]; [cbn [length]; lia|]. rewrite !lits_app, lits_map2, !lits_cons in IH. rewrite lits_cons. rewrite !app_length, map_length in IH.
    rewrite ?app_length in IH. change (lits (@nil (list Z))) with 0 in IH. cbn [length] in *. subst c0. cbn [length] in *. lia.
Qed.
Lemma tseytin_shape : forall g k a, within g a -> 
  within (tseytinNegation g k) (sneg a) /\ (tv (tseytinNegation g k) <= k + Z.of_nat (zS a) + 1)%Z.
Proof.
  intros g k a (W1 & W2 & W3 & W4). unfold tseytinNegation. pose proof (tseytin_size (sClauses g) k [] []) as X.
  change (lits (@nil clause)) with 0 in X. destruct (tseytin_loop _ _ _ _) as [k'|[[k' cls] encs]].
  - unfold within. cbn [sClauses cClauses tv sneg zS zL zC zK]. change (lits (@nil clause)) with 0. cbn [length]. lia.
  - destruct X as (X1 & X2 & X3 & X4). cbn [length] in *. destruct (Nat.eqb_spec (length encs) 1) as [L|L]; unfold within, addNegationIFFClauses; cbn [sClauses cClauses tv sneg zS zL zC zK].
    + rewrite !lits_cons, app_length, lits_app. unfold clause in *. change (lits (@nil (list Z))) with 0. cbn [length]. lia.
    + rewrite !lits_app, !lits_cons, lits_map2, ?app_length, map_length, ?app_length. unfold clause in *. change (lits (@nil (list Z))) with 0. cbn [length]. lia.
Qed.
Lemma Negate_size : forall f k a, within f a -> within (Negate f (Some k)) (sneg a) /\ (tv (Negate f (Some k)) <= Z.max (tv f) k + Z.of_nat (zS a) + 1)%Z.
Proof.
  intros f k a W. assert (M : maxInt (tv f) k = Z.max (tv f) k) by (unfold maxInt; destruct (Z.ltb_spec k (tv f)); lia).
  unfold Negate. rewrite M. pose proof W as (W1 & W2 & W3 & W4). destruct (sClauses f) as [|c0 cl] eqn:ES.
  - unfold within. cbn [AppendSemantics sClauses cClauses tv sneg zS zL zC zK]. rewrite ES. cbn [app length]. change (lits [@nil Z]) with 0. lia.
  - rewrite <- ES in *. destruct (hasEmptySemanticClause f).
    + unfold within. cbn [sClauses cClauses tv sneg zS zL zC zK]. change (lits (@nil clause)) with 0. cbn [length]. lia.
    + apply tseytin_shape. unfold within in *. cbn [sClauses cClauses]. lia.
Qed.

(* ---- queries ---- *)

Section Queries.
Variables d n : nat.

Definition fit (c : ctx) : Prop := good_ctx c /\ Dim (cModel c) = d /\ length (Nodes (cModel c)) = n.
Definition grown (c c' : ctx) (k : nat) : Prop := (vm_topv (cVM c) <= vm_topv (cVM c') <= vm_topv (cVM c) + Z.of_nat k)%Z.
(* x returns a formula of size at most z. *)
Definition sized (x : M CNF) (z : size) : Prop := forall c f c', fit c -> x c = (Ok f, c') -> fit c' /\ bounded f (cVM c') /\ within f z /\ grown c c' (zT z).

Lemma safe_fit : forall (x : M CNF) c f c', safe anything bounded x -> fit c -> x c = (Ok f, c') -> fit c' /\ bounded f (cVM c') /\ vm_ext (cVM c) (cVM c').
Proof.
  intros x c f c' Sx (G & D & N) E. destruct (Sx c (Ok f) c' G Logic.I E) as [V B]; [discriminate|]. destruct V as [V1 V2 V3 V4 V5].
  split; [split; [exact V2|rewrite V1; auto]|]. split; [apply B; reflexivity|exact V3].
Qed.
Lemma sized_wrap : forall p x z, sized x z -> sized (wrap p x) z.
Proof. intros p x z H c f c' F E. apply wrap_inv in E. eauto. Qed.
Lemma sized_le : forall x a b, sized x a -> sle a b -> sized x b.
Proof.
  intros x a b H L c f c' F E. destruct (H c f c' F E) as (A & B & C & D). split; auto. split; auto. split; [eapply within_le; eauto|].
  unfold grown, sle in *. lia.
Qed.
Lemma sized_fail : forall e z, sized (fail e) z.
Proof. intros e z c f c' F E. discriminate. Qed.

Lemma sized_atom : forall a, sized (enc_atom a) (asize d n a).
Proof.
  intros a c f c' F E. destruct (safe_fit _ _ _ _ (safe_enc_atom a) F E) as (F' & B & (X & _)). split; auto. split; auto.
  unfold enc_atom in E. destruct (atom_enc c a) as [o| | |] eqn:EA; try discriminate. pose proof (atom_size c a o EA) as Hz. destruct F as (G & FD & FN). rewrite FD, FN in Hz.
  destruct o as [b|es].
  - injection E as <- <-. cbn [osize] in Hz. unfold sle, within, grown in *. cbn [zS zL zC zK zT] in Hz. destruct b; cbn [sClauses cClauses TrueCNF FalseCNF NegClauses length].
    all: unfold lits, NegClauses; cbn [concat app length]; lia.
  - destruct (run_emits (cVM c) es) as [g vm] eqn:ER. injection E as <- <-. destruct (run_size _ _ _ _ ER) as [W T]. cbn [osize] in Hz.
    split; [eapply within_le; eauto|]. unfold grown, sle in *. cbn [set_vm cVM] in *. lia.
Qed.
Lemma sized_encodeI : forall v, sized (encodeI v) (withsize d).
Proof.
  intros v c f c' F E. destruct (safe_fit _ _ _ _ (safe_encodeI v) F E) as (F' & B & (X & _)). split; auto. split; auto.
  unfold encodeI in E. apply bind_inv in E as (w & c1 & E1 & E). unfold m_ScopeVar in E1. injection E1 as E1 <-.
  destruct (CNFVarExists _ _).
  - injection E as <- <-. unfold within, grown. cbn [TrueCNF sClauses cClauses]. change (lits (@nil clause)) with 0. cbn [length]. lia.
  - destruct (run_emits _ _) as [g vm] eqn:ER. injection E as <- <-. destruct (run_size _ _ _ _ ER) as [W T]. destruct F as (_ & FD & _). rewrite FD in *.
    assert (Hz : sle (essize (withvar_emits (Z.of_nat d) w)) (withsize d)).
    { unfold withvar_emits. match goal with |- context [?x :: map ?h ?l] => change (x :: map h l) with ([x] ++ map h l) end. rewrite essize_app.
      match goal with |- context [map ?h (zrange 0 (Z.of_nat d))] => pose proof (essize_map _ h (mkSize 0 0 3 6 6) (zrange 0 (Z.of_nat d))) as Y end.
      match type of Y with ?P -> _ => assert (Y1 : P) by (intros x _; unfold sle; cbn; lia) end. specialize (Y Y1). rewrite zrange_len in Y.
      match goal with |- context [ECons (map ?h ?l)] => pose proof (few_lits _ 3 d (map h l) (few_map _ _ 3 d h l ltac:(rewrite zrange_len; lia) ltac:(simpl; lia))) as Y2 end.
      unfold sle in *. match type of Y with context [essize ?z] => generalize dependent (essize z) end. intros z Y.
      cbn [essize fold_right sadd esize szero smul zS zL zC zK zT withsize] in *. szlia. }
    split; [eapply within_le; eauto|]. unfold grown, sle in *. cbn [set_vm cVM] in *. lia.
Qed.
Lemma sized_negate : forall c f c' g z, fit c -> bounded f (cVM c) -> within f z -> m_Negate f c = (Ok g, c') ->
  fit c' /\ bounded g (cVM c') /\ within g (sneg z) /\ grown c c' (zS z + 1).
Proof.
  intros [s vm m] f c' g z F [W T] Hz E. destruct (safe_Negate f _ (Ok g) c' (proj1 F) (conj W T) E) as [V B]; [discriminate|].
  cbn [cVM] in *. rewrite neg_m in E. injection E as <- <-. destruct V as [V1 V2 (V3 & _) V4 V5]. cbn [cModel cVM] in *.
  destruct (Negate_size f (vm_topv vm) z Hz) as [N1 N2]. split; [split; [exact V2|]; destruct F as (_ & F); exact F|]. split; [apply B; reflexivity|].
  split; [exact N1|]. unfold grown, negF. cbn [snd cVM]. unfold negF in V3. cbn [snd] in V3. split; auto.
  unfold UpdateTopV, TopV. destruct (_ <? _)%Z; cbn [snd vm_topv]; lia.
Qed.

Lemma fit_AddVar : forall c v c', fit c -> m_AddVar v c = (Ok tt, c') -> fit c' /\ cVM c' = cVM c.
Proof.
  intros c v c' (G & D & N) E. destruct (safe_AddVar v c (Ok tt) c' G Logic.I E) as [V _]; [discriminate|].
  split; [split; [apply V|rewrite (ev_model _ _ V); auto]|]. unfold m_AddVar in E. injection E as <-. reflexivity.
Qed.

Lemma sized_loop : forall body z, safe anything bounded body -> sized body z -> forall fuel base tgt it i acc za c f c', fit c ->
  (exists g, scopes (cScoper c) = base ++ [g] /\ sTarget g = tgt) -> bounded acc (cVM c) -> within acc za ->
  forall_loop (S fuel) body it i acc c = (Ok f, c') -> within f (sadd za (smul fuel z)) /\ grown c c' (fuel * zT z) /\ fit c'.
Proof.
  intros body z Sb Hb. induction fuel as [|fuel IH]; intros base tgt it i acc za c f c' F SC B W E; cbn [forall_loop] in E.
  - apply bind_inv in E as ([more it1] & c1 & E1 & E). unfold lift in E1. injection E1 as E1 <-. destruct more.
    + apply bind_inv in E as (u & c2 & _ & E). apply bind_inv in E as (g & c3 & _ & E). discriminate.
    + injection E as <- <-. split; [eapply within_le; [exact W|]; unfold sle; cbn; lia|]. split; auto. unfold grown. lia.
  - apply bind_inv in E as ([more it1] & c1 & E1 & E). unfold lift in E1. injection E1 as E1 <-. destruct more.
    + apply bind_inv in E as ([] & c2 & E2 & E). apply bind_inv in E as (g & c3 & E3 & E).
      destruct F as (G & FD & FN). destruct (turns_set base tgt c i (it_t it1) c2 G SC E2) as [T1 V1].
      assert (F2 : fit c2) by (split; [apply T1|rewrite (tn_model _ _ _ _ T1); auto]).
      destruct (Hb c2 g c3 F2 E3) as (F3 & B3 & W3 & G3).
      destruct (Sb c2 (Ok g) c3 (proj1 F2) Logic.I E3) as [V3 _]; [discriminate|].
      pose proof (evolves_turns base tgt c2 c3 V3 (tn_scopes _ _ _ _ T1)) as T3.
      destruct (IH base tgt it1 (i + 1)%Z (Conjunction acc g) (sadd za z) c3 f c') as (W4 & G4 & F4); auto.
      * apply (tn_scopes _ _ _ _ T3).
      * apply bounded_Conj; auto. eapply bounded_ext; [apply T3|]. now rewrite V1.
      * now apply within_Conj.
      * split; [eapply within_le; [exact W4|]; unfold sle; cbn [sadd smul zS zL zC zK zT]; lia|]. split; auto. unfold grown in *. rewrite V1 in *. lia.
    + injection E as <- <-. split; [eapply within_le; [exact W|]; unfold sle; cbn [sadd smul zS zL zC zK zT]; lia|]. split; [unfold grown; lia|exact F].
Qed.

Theorem sized_enc : forall q, sized (enc q) (qsize d n q).
Proof.
  induction q as [|a|q IH|q1 IH1 q2 IH2|q1 IH1 q2 IH2|v q IH|k q IH]; cbn [enc qsize].
  - intros c f c' F E. discriminate.
  - apply sized_atom.
  - apply sized_wrap. destruct (is_nil q); [apply sized_fail|]. intros c f c' F E. apply bind_inv in E as (g & c1 & E1 & E).
    destruct (IH c g c1 F E1) as (F1 & B1 & W1 & G1). destruct (sized_negate c1 g c' f _ F1 B1 W1 E) as (F2 & B2 & W2 & G2).
    split; auto. split; auto. split; auto. unfold grown in *. cbn [sneg zT]. lia.
  - apply sized_wrap. destruct (is_nil q1); [apply sized_fail|]. destruct (is_nil q2); [apply sized_fail|]. intros c f c' F E.
    apply bind_inv in E as (f1 & c1 & E1 & E). apply bind_inv in E as (f2 & c2 & E2 & E). injection E as <- <-. apply wrap_inv in E1, E2.
    destruct (IH1 c f1 c1 F E1) as (F1 & B1 & W1 & G1). destruct (IH2 c1 f2 c2 F1 E2) as (F2 & B2 & W2 & G2).
    destruct (safe_fit _ _ _ _ (safe_enc q2) F1 E2) as (_ & _ & X).
    split; auto. split; [apply bounded_Conj; auto; eapply bounded_ext; eauto|]. split; [now apply within_Conj|]. unfold grown in *. cbn [sadd zT]. lia.
  - apply sized_wrap. destruct (is_nil q1); [apply sized_fail|]. destruct (is_nil q2); [apply sized_fail|]. intros c f c' F E.
    apply bind_inv in E as (f1 & c1 & E1 & E). apply bind_inv in E as (f2 & c2 & E2 & E). apply wrap_inv in E1, E2.
    apply bind_inv in E as (g1 & c3 & E3 & E). apply bind_inv in E as (g2 & c4 & E4 & E).
    destruct (IH1 c f1 c1 F E1) as (F1 & B1 & W1 & G1). destruct (IH2 c1 f2 c2 F1 E2) as (F2 & B2 & W2 & G2).
    destruct (safe_fit _ _ _ _ (safe_enc q2) F1 E2) as (_ & _ & X2).
    destruct (sized_negate c2 f1 c3 g1 _ F2 (bounded_ext _ _ _ X2 B1) W1 E3) as (F3 & B3 & W3 & G3).
    destruct (safe_Negate f1 c2 (Ok g1) c3 (proj1 F2) (bounded_ext _ _ _ X2 B1) E3) as [V3 _]; [discriminate|].
    destruct (sized_negate c3 f2 c4 g2 _ F3 (bounded_ext _ _ _ (ev_vm _ _ V3) B2) W2 E4) as (F4 & B4 & W4 & G4).
    destruct (safe_Negate f2 c3 (Ok g2) c4 (proj1 F3) (bounded_ext _ _ _ (ev_vm _ _ V3) B2) E4) as [V4 _]; [discriminate|].
    destruct (sized_negate c4 _ c' f _ F4 (bounded_Conj _ _ _ (bounded_ext _ _ _ (ev_vm _ _ V4) B3) B4) (within_Conj _ _ _ _ W3 W4) E) as (F5 & B5 & W5 & G5).
    split; auto. split; auto. split; auto. unfold grown in *. cbn [sneg sadd zT zS] in *. lia.
  - apply sized_wrap. destruct (is_nil q); [apply sized_fail|]. intros c f c' F E.
    apply bind_inv in E as ([] & c1 & E1 & E). apply bind_inv in E as (f1 & c2 & E2 & E). apply bind_inv in E as (f2 & c3 & E3 & E). injection E as <- <-.
    destruct (fit_AddVar c v c1 F E1) as [F1 X1]. destruct (sized_encodeI v c1 f1 c2 F1 E2) as (F2 & B2 & W2 & G2).
    destruct (IH c2 f2 c3 F2 E3) as (F3 & B3 & W3 & G3). destruct (safe_fit _ _ _ _ (safe_enc q) F2 E3) as (_ & _ & X).
    split; auto. split; [apply bounded_Conj; auto; eapply bounded_ext; eauto|]. split; [now apply within_Conj|]. unfold grown in *. rewrite X1 in *. cbn [sadd zT]. lia.
  - apply sized_wrap. destruct (is_nil q); [apply sized_fail|]. intros c f c' F E. pose proof F as (G & FD & FN).
    destruct (safe_all (enc q) (cID k) forall_fuel (safe_enc q) c (Ok f) c' G E) as [[V SE] B]; [discriminate|].
    split; [split; [apply V|rewrite (ev_model _ _ V); auto]|]. split; [now apply B|].
    apply bind_inv in E as ([] & c1 & E1 & E). unfold m_AddScope in E1. injection E1 as <-. unfold defer_PopScope in E.
    match type of E with (let (_, _) := ?x in _) = _ => destruct x as [r1 c2] eqn:E2 end.
    assert (X : r1 = Ok f /\ cVM c' = cVM c2).
    { destruct r1; try discriminate; destruct (PopScope (cScoper c2)) as [[pe|] s2]; try discriminate; injection E as <- <-; auto. }
    destruct X as [-> X]. apply bind_inv in E2 as (it & c3 & E3 & E2). unfold lift in E3. injection E3 as _ <-.
    unfold forall_fuel in E2. cbn [set_scoper cModel] in E2. rewrite FN, Nat.add_1_r in E2.
    destruct (sized_loop (enc q) (qsize d n q) (safe_enc q) IH n (scopes (cScoper c)) (cID k) it 0%Z TrueCNF szero (set_scoper c (AddScope (cScoper c) (cID k))) f c2) as (W & GR & _); [| | | |exact E2|].
    + split; [now apply AddScope_good|]. auto.
    + exists (mkScope (cID k) [] 0). auto.
    + split; [apply wf_True|]. apply G.
    + unfold within. cbn [TrueCNF sClauses cClauses szero zS zL zC zK]. change (lits (@nil clause)) with 0. cbn [length]. lia.
    + split; [eapply within_le; [exact W|]; unfold sle; cbn [sadd szero zS zL zC zK zT]; lia|]. unfold grown in *. rewrite X. cbn [set_scoper cVM] in GR. cbn [smul zT]. exact GR.
Qed.
End Queries.
