(* Which queries can panic or loop: on every model, in every context. *)
From Verif Require Import GoBase GoLemmas Cnf Query Walk Atoms Logop Spec CnfSem QueryLemmas Sym AtomBase TreeLemmas WalkLemmas WalkConst Form AtomCnf Evolve Total.
Local Open Scope Z_scope.
Local Open Scope list_scope.

(* A CNF or an error. *)
Definition quiet {A} (r : res A) : Prop := (exists a, r = Ok a) \/ (exists e, r = Err e).

Lemma quiet_ok : forall A (a : A), quiet (Ok a). Proof. left; eauto. Qed.
Lemma quiet_err : forall A e, quiet (@Err A e). Proof. right; eauto. Qed.
Lemma quiet_bind : forall A B (x : res A) (k : A -> res B), quiet x -> (forall a, x = Ok a -> quiet (k a)) -> quiet (rbind x k).
Proof. intros A B x k [(a & ->)|(e & ->)] H; cbn [rbind]; [auto|apply quiet_err]. Qed.
Lemma quiet_not_hang : forall A (r : res A), quiet r -> r <> Hang.
Proof. intros A r [(a & ->)|(e & ->)]; discriminate. Qed.

(* ---- components ---- *)

Definition inner_children (nodes : list node) : Prop :=
  forall n, In n nodes -> IsLeaf n = false -> below_len nodes (zChild n) /\ below_len nodes (oChild n).
Definition inner_feats (dim : nat) (nodes : list node) : Prop :=
  forall n, In n nodes -> IsLeaf n = false -> 0 <= nFeat n < Z.of_nat dim.

(* What a component needs of the model, and of its preference, not to panic or
   loop. *)
Definition demands (m : model) (a : atom) : Prop :=
  match a with
  | NodeV _ _ => inner_feats (Dim m) (Nodes m)
  | NodeC _ => forall k, length (cVal k) = Dim m -> isnode_const (Dim m) (Nodes m) k <> Hang
  | AllC _ _ => inner_children (Nodes m)
  | DfsV _ | DfsC _ => Nodes m <> []
  | HeprVV _ _ p _ | HeprVC _ _ p _ | HeprCV _ _ p _ => p <> []
  | LehVVC _ _ _ _ _ | LehVCV _ _ _ _ _ | LehCVV _ _ _ _ | LehVCC _ _ _ _ => (0 < Dim m)%nat
  | _ => True
  end.

Lemma validate_one : forall dim i c, validate_from i dim [c] = None -> length (cVal c) = dim.
Proof. intros dim i c. simpl. destruct (Nat.eqb_spec (length (cVal c)) dim); [auto|discriminate]. Qed.

Lemma quiet_scope : forall B s v (k : string -> res B), sc_inv s -> (forall w, quiet (k w)) -> quiet (rdo w <- ScopeVar s v ;; k w).
Proof. intros B s v k J H. rewrite ScopeVar_ok by auto. cbn [rbind]. apply H. Qed.
Lemma quiet_guard : forall B o (k : res B), (o = None -> quiet k) -> quiet (guard o k).
Proof. intros B [e|] k H; cbn [guard]; [apply quiet_err|auto]. Qed.
Lemma quiet_need : forall A B (o : option A) e (k : A -> res B), (forall a, quiet (k a)) -> quiet (need o e k).
Proof. intros A B [a|] e k H; cbn [need]; [auto|apply quiet_err]. Qed.
Lemma quiet_first : forall B dim (k : res B), (0 < dim)%nat -> quiet k -> quiet (first_feat dim k).
Proof. intros B [|dim] k L H; [lia|exact H]. Qed.

Lemma fcl_total : forall r dim (l : list (Z * node)) fcl, length fcl = dim ->
  (forall p, In p l -> IsLeaf (snd p) = false -> 0 <= nFeat (snd p) < Z.of_nat dim) ->
  quiet (fold_left (isnode_fcl_step r) l (Ok fcl)).
Proof.
  intros r dim l. induction l as [|[i n] l IH]; intros fcl L H; [apply quiet_ok|].
  cbn [fold_left]. unfold isnode_fcl_step at 2. cbn [rbind]. destruct (IsLeaf n) eqn:EL.
  - apply IH; auto. intros p Hp. apply H. now right.
  - pose proof (H (i, n) (or_introl eq_refl) EL) as B. cbn [snd] in B.
    assert (E : exists cl, sget fcl (nFeat n) = Ok cl).
    { unfold sget. destruct (Z.ltb_spec (nFeat n) 0); [lia|]. destruct (nth_error fcl (Z.to_nat (nFeat n))) eqn:En; eauto. apply nth_error_None in En. lia. }
    destruct E as (cl & ->). cbn [rbind]. rewrite sset_ok by (rewrite L; lia).
    apply IH; [now rewrite list_set_length|]. intros p Hp. apply H. now right.
Qed.

Lemma mapi_pair_snd : forall A (l : list A) i p, In p (mapi_from i pair l) -> In (snd p) l.
Proof. intros A l. induction l as [|a l IH]; intros i p; simpl; [tauto|]. intros [<-|H]; [now left|right; eauto]. Qed.

Lemma dfs_var_loop_total : forall dim v l, (forall p, In p l -> length (cVal (fst p)) = dim /\ length (cVal (snd p)) = dim) ->
  quiet (dfs_var_loop dim v l).
Proof.
  intros dim v l. induction l as [|[a b] l IH]; intros H; [apply quiet_ok|]. cbn [dfs_var_loop].
  apply quiet_bind.
  - unfold notAWitnessClause. destruct (_ || _); [apply quiet_err|apply quiet_ok].
  - intros cl _. apply quiet_bind; [apply IH; intros p Hp; apply H; now right|]. intros cls _. apply quiet_ok.
Qed.
Lemma dfs_const_loop_total : forall c l, quiet (dfs_const_loop c l).
Proof.
  intros c l. induction l as [|[a b] l IH]; [apply quiet_ok|]. cbn [dfs_const_loop]. apply quiet_bind.
  - unfold leafCompare. destruct (_ || _); [apply quiet_err|apply quiet_ok].
  - intros [|] _; simpl; [exact IH|apply quiet_ok].
Qed.

Ltac quieter :=
  repeat first [apply quiet_ok | apply quiet_err | apply quiet_scope; [assumption|intro] | apply quiet_need; intro
               | apply quiet_guard; intro | apply quiet_first; [assumption|]
               | match goal with |- quiet (if ?b then _ else _) => match type of b with bool => destruct b end end ].

Theorem atom_outcome : forall c a, sc_inv (cScoper c) -> demands (cModel c) a -> quiet (atom_enc c a).
Proof.
  intros c a J D. destruct a; cbn [atom_enc demands] in *; cbv zeta; quieter.
  - (* NodeV *) destruct (Nodes (cModel c)) as [|nd0 l0] eqn:EN; [apply quiet_err|]. rewrite <- EN in *. quieter. apply quiet_bind.
    + unfold isnode_fcl. apply (fcl_total _ (Dim (cModel c))); [rewrite map_length; unfold zrange; rewrite map_length, seq_length; lia|].
      intros p Hp. apply D. eapply mapi_pair_snd; eauto.
    + intros; apply quiet_ok.
  - (* NodeC *) unfold rbool. apply quiet_bind; [|intros; apply quiet_ok]. apply validate_one in H.
    destruct (isnode_total (Dim (cModel c)) (Nodes (cModel c)) _ H) as [X|[X|[X _]]]; [left; auto|right; auto|]. exfalso. eapply D; eauto.
  - (* AllV *) destruct (Nodes (cModel c)); quieter.
  - (* AllC *) unfold rbool. apply quiet_bind; [|intros; apply quiet_ok]. apply validate_one in H.
    destruct (allcomp_total (Dim (cModel c)) (Nodes (cModel c)) _ b H) as [X|[X|[_ (n & Hn & Hl & X)]]]; [left; auto|right; auto|].
    exfalso. pose proof (D n Hn Hl). tauto.
  - (* DfsV *) destruct (leafs_total (Dim (cModel c)) _ D) as [(e & ->)|(p & n & -> & Hp & Hn)]; [apply quiet_err|]. cbn [rbind]. quieter.
    apply quiet_bind; [|intros; apply quiet_ok]. apply dfs_var_loop_total. intros [x y] H. apply in_prod_iff in H as [Hx Hy].
    rewrite Forall_forall in Hp, Hn. cbn [fst snd]. auto.
  - (* DfsC *) destruct (leafs_total (Dim (cModel c)) _ D) as [(e & ->)|(p & n & -> & Hp & Hn)]; [apply quiet_err|]. cbn [rbind]. quieter.
    unfold rbool. apply quiet_bind; [|intros; apply quiet_ok]. apply dfs_const_loop_total.
  - destruct pref; [congruence|apply quiet_ok].
  - destruct pref; [congruence|apply quiet_ok].
  - destruct pref; [congruence|apply quiet_ok].
Qed.

(* ---- queries ---- *)

Fixpoint atoms_of (q : query) : list atom :=
  match q with
  | QNil => []
  | QAtom a => [a]
  | QNot q | QWith _ q | QAll _ q => atoms_of q
  | QAnd q1 q2 | QOr q1 q2 => atoms_of q1 ++ atoms_of q2
  end.

Definition calm {A} (m : model) (x : M A) : Prop := forall c, good_ctx c -> cModel c = m -> quiet (fst (x c)).
Definition always_quiet {A} (x : M A) : Prop := forall c, quiet (fst (x c)).

Lemma calm_bind : forall A B m (x : M A) (f : A -> M B) Q, safe anything Q x -> calm m x ->
  (forall a, calm m (f a)) -> calm m (bind x f).
Proof.
  intros A B m x f Q S Cx Cf c G E. unfold bind. pose proof (Cx c G E) as H. destruct (x c) as [r c'] eqn:EX. cbn [fst] in H.
  destruct (S c r c' G Logic.I EX (quiet_not_hang _ _ H)) as [V _]. destruct H as [(a & ->)|(e & ->)].
  - apply Cf; [apply V|]. rewrite (ev_model _ _ V). exact E.
  - cbn [fst]. apply quiet_err.
Qed.
Lemma calm_bind_always : forall A B m (x : M A) (f : A -> M B), calm m x -> (forall a, always_quiet (f a)) -> calm m (bind x f).
Proof.
  intros A B m x f Cx Cf c G E. unfold bind. pose proof (Cx c G E) as H. destruct (x c) as [r c'] eqn:EX. cbn [fst] in H.
  destruct H as [(a & ->)|(e & ->)]; [apply Cf|apply quiet_err].
Qed.
Lemma always_bind : forall A B (x : M A) (f : A -> M B), always_quiet x -> (forall a, always_quiet (f a)) -> always_quiet (bind x f).
Proof.
  intros A B x f Cx Cf c. unfold bind. pose proof (Cx c) as H. destruct (x c) as [r c'] eqn:EX. cbn [fst] in H.
  destruct H as [(a & ->)|(e & ->)]; [apply Cf|apply quiet_err].
Qed.
Lemma calm_wrap : forall A m p (x : M A), calm m x -> calm m (wrap p x).
Proof.
  intros A m p x H c G E. unfold wrap. specialize (H c G E). destruct (x c) as [r c']. cbn [fst] in H.
  destruct H as [(a & ->)|(e & ->)]; cbn [fst]; [apply quiet_ok|apply quiet_err].
Qed.
Lemma always_calm : forall A m (x : M A), always_quiet x -> calm m x.
Proof. intros A m x H c _ _. apply H. Qed.
Lemma always_fail : forall A e, always_quiet (@fail A e).
Proof. intros A e c. apply quiet_err. Qed.
Lemma always_ret : forall A (a : A), always_quiet (ret a).
Proof. intros A a c. apply quiet_ok. Qed.
Lemma always_Negate : forall f, always_quiet (m_Negate f).
Proof. intros f c. unfold m_Negate, bind, m_TopV, m_UpdateTopV, ret. cbn. apply quiet_ok. Qed.

Lemma encodeI_calm : forall m v, calm m (encodeI v).
Proof.
  intros m v c [I J] _. unfold encodeI, bind, m_ScopeVar. rewrite ScopeVar_ok by auto.
  destruct (CNFVarExists _ _); [apply quiet_ok|]. destruct (run_emits _ _). apply quiet_ok.
Qed.

Lemma loop_calm : forall m body dim base tgt, safe anything bounded body -> calm m body ->
  forall fuel it i acc c, good_ctx c -> cModel c = m -> (exists g, scopes (cScoper c) = base ++ [g] /\ sTarget g = tgt) ->
  it_ok dim it -> (unvisited (it_walk it) < fuel)%nat -> quiet (fst (forall_loop fuel body it i acc c)).
Proof.
  intros m body dim base tgt Sb Cb fuel. induction fuel as [|fuel IH]; intros it i acc c G Em S Iit F; [lia|].
  cbn [forall_loop]. destruct (Next_total dim it Iit) as (more & it1 & EN & I1 & U). unfold bind at 1, lift. rewrite EN.
  destruct more; [|apply quiet_ok].
  assert (SS : exists c1, m_SetScope i (it_t it1) c = (Ok tt, c1)).
  { unfold m_SetScope. pose proof (SetScope_ok (cScoper c) i (it_t it1)) as H. destruct (SetScope _ _ _) as [er s1]. cbn [fst] in H.
    rewrite H; [eauto|]. destruct S as (g & S & _). rewrite S. destruct base; discriminate. }
  destruct SS as (c1 & SS). destruct (turns_set base tgt c i (it_t it1) c1 G S SS) as [T1 V1].
  rewrite (bind_ok _ _ _ _ _ _ _ SS). unfold bind at 1.
  pose proof (Cb c1 (tn_good _ _ _ _ T1) ltac:(rewrite (tn_model _ _ _ _ T1); exact Em)) as Q.
  destruct (body c1) as [r2 c2] eqn:E2. cbn [fst] in Q.
  destruct (Sb c1 r2 c2 (tn_good _ _ _ _ T1) Logic.I E2 (quiet_not_hang _ _ Q)) as [V2 B2].
  pose proof (turns_trans _ _ _ _ _ T1 (evolves_turns base tgt c1 c2 V2 (tn_scopes _ _ _ _ T1))) as T12.
  destruct Q as [(f2 & ->)|(e & ->)]; [|apply quiet_err].
  apply IH; auto.
  - apply T12.
  - rewrite (tn_model _ _ _ _ T12). exact Em.
  - apply (tn_scopes _ _ _ _ T12).
  - lia.
Qed.

Theorem enc_outcome : forall m q, q <> QNil -> (forall a, In a (atoms_of q) -> demands m a) -> calm m (enc q).
Proof.
  intros m. induction q as [|a|q IH|q1 IH1 q2 IH2|q1 IH1 q2 IH2|v q IH|k q IH]; intros NN D; cbn [enc].
  - congruence.
  - intros c [I J] E. pose proof (atom_outcome c a J) as H. rewrite E in H. specialize (H (D a (or_introl eq_refl))).
    unfold enc_atom. destruct H as [([b|es] & ->)|(e & ->)]; [apply quiet_ok| |apply quiet_err]. destruct (run_emits _ _). apply quiet_ok.
  - apply calm_wrap. destruct (is_nil q) eqn:N1; [apply always_calm, always_fail|].
    apply calm_bind_always; [apply IH; [intros ->; discriminate|exact D]|intros; apply always_Negate].
  - apply calm_wrap. destruct (is_nil q1) eqn:N1; [apply always_calm, always_fail|]. destruct (is_nil q2) eqn:N2; [apply always_calm, always_fail|].
    eapply calm_bind; [apply safe_wrap, safe_enc|apply calm_wrap, IH1|].
    + intros ->; discriminate.
    + intros x Hx. apply D. cbn [atoms_of]. apply in_or_app. now left.
    + intros f1. apply calm_bind_always; [apply calm_wrap, IH2|intros; apply always_ret].
      * intros ->; discriminate.
      * intros x Hx. apply D. cbn [atoms_of]. apply in_or_app. now right.
  - apply calm_wrap. destruct (is_nil q1) eqn:N1; [apply always_calm, always_fail|]. destruct (is_nil q2) eqn:N2; [apply always_calm, always_fail|].
    eapply calm_bind; [apply safe_wrap, safe_enc|apply calm_wrap, IH1|].
    + intros ->; discriminate.
    + intros x Hx. apply D. cbn [atoms_of]. apply in_or_app. now left.
    + intros f1. apply calm_bind_always; [apply calm_wrap, IH2|].
      * intros ->; discriminate.
      * intros x Hx. apply D. cbn [atoms_of]. apply in_or_app. now right.
      * intros f2. apply always_bind; [apply always_Negate|intros g1]. apply always_bind; [apply always_Negate|intros g2]. apply always_Negate.
  - apply calm_wrap. destruct (is_nil q) eqn:N1; [apply always_calm, always_fail|].
    eapply calm_bind; [apply safe_AddVar| |intros u].
    { intros c _ _. apply quiet_ok. }
    eapply calm_bind; [eapply safe_weaken; [apply safe_encodeI|intros; exact Logic.I|intros f vm H; exact H]|apply encodeI_calm|intros f1].
    apply calm_bind_always; [apply IH; [intros ->; discriminate|exact D]|intros; apply always_ret].
  - apply calm_wrap. destruct (is_nil q) eqn:N1; [apply always_calm, always_fail|].
    intros c G E. unfold bind at 1, m_AddScope. set (c1 := set_scoper c (AddScope (cScoper c) (cID k))).
    assert (G1 : good_ctx c1) by now apply AddScope_good.
    assert (S1 : exists g, scopes (cScoper c1) = scopes (cScoper c) ++ [g] /\ sTarget g = cID k) by (exists (mkScope (cID k) [] 0); auto).
    assert (B1 : bounded TrueCNF (cVM c1)) by (split; [apply wf_True|apply G1]).
    unfold defer_PopScope.
    match goal with |- quiet (fst (let (_, _) := ?x in _)) => destruct x as [r1 c2] eqn:E1 end.
    assert (Q : quiet r1 /\ turns (scopes (cScoper c)) (cID k) c1 c2).
    { unfold bind, lift in E1. destruct (iter_total (Dim (cModel c1)) (Nodes (cModel c1))) as [(e & EI)|(it & EI & Iit & U)]; rewrite EI in E1.
      - injection E1 as <- <-. split; [apply quiet_err|now apply turns_refl].
      - assert (X : quiet r1).
        { change r1 with (fst (r1, c2)). rewrite <- E1. eapply (loop_calm m); eauto.
          - apply safe_enc.
          - apply IH; [intros ->; discriminate|exact D].
          - unfold forall_fuel. lia. }
        split; auto. eapply (loop_turns (enc q)); [apply safe_enc|exact G1|exact S1|exact B1|exact E1|]. now apply quiet_not_hang. }
    destruct Q as [Q T]. destruct (pop_turns c (cID k) c2 G T) as (P1 & _ & _).
    destruct (PopScope (cScoper c2)) as [pe s2]. cbn [fst] in P1. subst pe.
    destruct Q as [(a & ->)|(e & ->)]; [apply quiet_ok|apply quiet_err].
Qed.

(* ---- decision trees ---- *)

Lemma laid_out_at : forall nodes t, laid_out nodes t ->
  match t with
  | Leaf i b => IsLeaf (at_ nodes i) = true
  | Split i f z o => IsLeaf (at_ nodes i) = false /\ nFeat (at_ nodes i) = f /\ zChild (at_ nodes i) = pos z /\ oChild (at_ nodes i) = pos o
  end.
Proof.
  intros nodes [i b|i f z o] L; simpl in L.
  - destruct L as (_ & n & E & H & _). unfold at_. rewrite (nth_error_nth _ _ _ E). exact H.
  - destruct L as (_ & (n & E & H) & _). unfold at_. rewrite (nth_error_nth _ _ _ E). tauto.
Qed.

Lemma walk_tree_ends : forall dim nodes val t, laid_out nodes t ->
  exists k, walk_to (fun y => next_of dim nodes val (at_ nodes y)) k (pos t) = None.
Proof.
  intros dim nodes val t. induction t as [i b|i f z IHz o IHo]; intros L; pose proof (laid_out_at nodes _ L) as A.
  - exists 1%nat. simpl. unfold next_of. now rewrite A.
  - destruct A as (A & _ & Az & Ao). simpl in L. destruct L as (_ & _ & Lz & Lo).
    destruct (next_of dim nodes val (at_ nodes i)) as [y|] eqn:E.
    + assert (Y : y = pos z \/ y = pos o).
      { unfold next_of in E. rewrite A in E. destruct ((nFeat _ <? 0) || _); [discriminate|]. destruct (_ =? BOT); [discriminate|]. cbv zeta in E.
        destruct (_ =? ZERO); destruct ((_ <? 0) || _); try discriminate; injection E as <-; rewrite ?Az, ?Ao; auto. }
      destruct Y as [-> | ->].
      * destruct (IHz Lz) as (k & Hk). exists (S k). simpl. now rewrite E.
      * destruct (IHo Lo) as (k & Hk). exists (S k). simpl. now rewrite E.
    + exists 1%nat. simpl. now rewrite E.
Qed.

Lemma dtree_nonempty : forall m t, is_dtree m t -> Nodes m <> [].
Proof. intros m t (_ & P & L & _) E. pose proof (laid_out_pos _ _ L) as R. rewrite E in R. simpl in R. lia. Qed.

Lemma isnode_dtree : forall m t k, is_dtree m t -> length (cVal k) = Dim m -> isnode_const (Dim m) (Nodes m) k <> Hang.
Proof.
  intros m t k T L H. pose proof T as (_ & P & Lo & _). pose proof (dtree_nonempty m t T) as NE.
  destruct (isnode_total (Dim m) (Nodes m) k L) as [(r & X)|[(e & X)|[_ X]]]; [congruence|congruence|].
  destruct (walk_tree_ends (Dim m) (Nodes m) (cVal k) t Lo) as (n & W). rewrite P in W.
  assert (B0 : below_len (Nodes m) 0) by (destruct (Nodes m); [congruence|unfold below_len; simpl; lia]).
  assert (R : hd_error (Nodes m) = Some (at_ (Nodes m) 0)) by (destruct (Nodes m); [congruence|reflexivity]).
  assert (L0 : length (newVisitRecord k) = Dim m) by (unfold newVisitRecord; now rewrite map_length).
  destruct (isnode_loop_walk (Dim m) (Nodes m) (cVal k) L n 0 (newVisitRecord k) L0 B0) as [[_ Y]|[[(v & Y)|(e & Y)] _]].
  - now apply Y.
  - rewrite (X _ R n) in Y. discriminate.
  - rewrite (X _ R n) in Y. discriminate.
Qed.

Lemma dtree_node_valid : forall m t n, is_dtree m t -> In n (Nodes m) -> node_valid (Dim m) (length (Nodes m)) n.
Proof.
  intros m t n T H. pose proof (validateNodes_ok m t T) as V. apply validateNodes_iff in V. rewrite Forall_forall in V. auto.
Qed.

Definition has_pref (a : atom) : Prop :=
  match a with HeprVV _ _ p _ | HeprVC _ _ p _ | HeprCV _ _ p _ => p <> [] | _ => True end.

Lemma dtree_demands : forall m t a, is_dtree m t -> has_pref a -> demands m a.
Proof.
  intros m t a T H. destruct a; cbn [demands has_pref] in *; auto; try apply T.
  - intros n Hn Hl. destruct (dtree_node_valid m t n T Hn) as [V|V]; [congruence|]. apply V.
  - intros k L. eapply isnode_dtree; eauto.
  - intros n Hn Hl. destruct (dtree_node_valid m t n T Hn) as [V|V]; [congruence|]. destruct V as (_ & V1 & V2). split; assumption.
  - eapply dtree_nonempty; eauto.
  - eapply dtree_nonempty; eauto.
Qed.

(* ---- looping: only IsNode of a constant can ---- *)

Lemma allcomp_no_hang : forall dim nodes c b, length (cVal c) = dim -> allcomp_const dim nodes c b <> Hang.
Proof. intros dim nodes c b H. destruct (allcomp_total dim nodes c b H) as [(r & ->)|[(e & ->)|[-> _]]]; discriminate. Qed.
Lemma fcl_no_hang : forall r l acc, acc <> Hang -> fold_left (isnode_fcl_step r) l acc <> Hang.
Proof.
  intros r l. induction l as [|[i n] l IH]; intros acc H; [exact H|]. cbn [fold_left]. apply IH. unfold isnode_fcl_step.
  destruct acc as [fcl|e| |]; cbn [rbind]; try congruence. destruct (IsLeaf n); [discriminate|]. unfold sget.
  destruct (nFeat n <? 0); [discriminate|]. destruct (nth_error fcl _); cbn [rbind]; [|discriminate]. unfold sset.
  destruct (nFeat n <? 0); [discriminate|]. destruct (_ <? _)%nat; discriminate.
Qed.
Lemma leafs_no_hang : forall dim nodes, leafsAsConsts dim nodes <> Hang.
Proof.
  intros dim nodes. destruct nodes as [|n l] eqn:E; [discriminate|]. rewrite <- E.
  destruct (leafs_total dim nodes) as [(e & ->)|(p & q & -> & _)]; [subst; discriminate|discriminate|discriminate].
Qed.

Lemma need_no_hang : forall A B (o : option A) e (k : A -> res B), (forall a, k a <> Hang) -> need o e k <> Hang.
Proof. intros A B [a|] e k H; cbn [need]; [auto|discriminate]. Qed.
Lemma guard_no_hang : forall B o (k : res B), (o = None -> k <> Hang) -> guard o k <> Hang.
Proof. intros B [e|] k H; cbn [guard]; [discriminate|auto]. Qed.
Lemma bind_no_hang : forall A B (x : res A) (k : A -> res B), x <> Hang -> (forall a, x = Ok a -> k a <> Hang) -> rbind x k <> Hang.
Proof. intros A B [a|e| |] k H H'; cbn [rbind]; try congruence. auto. Qed.

Theorem atom_no_hang : forall c a, sc_inv (cScoper c) -> (forall k, a <> NodeC k) -> atom_enc c a <> Hang.
Proof.
  intros c a J NN.
  assert (D : demands (cModel c) a -> atom_enc c a <> Hang) by (intros D; apply quiet_not_hang, atom_outcome; auto).
  destruct a; try (apply D; exact Logic.I); try (exfalso; eapply NN; reflexivity); clear D; cbn [atom_enc]; cbv zeta;
    repeat first [apply need_no_hang; intro | apply guard_no_hang; intro
                 | match goal with |- (rdo _ <- ScopeVar _ _ ;; _) <> Hang => rewrite ScopeVar_ok by assumption; cbn [rbind] end].
  - destruct (Nodes (cModel c)); [discriminate|]. rewrite ScopeVar_ok by auto. cbn [rbind].
    apply bind_no_hang; [|discriminate]. unfold isnode_fcl. apply fcl_no_hang. discriminate.
  - apply bind_no_hang; [|discriminate]. apply allcomp_no_hang. now apply validate_one in H.
  - apply bind_no_hang; [apply leafs_no_hang|]. intros [p n] _. destruct (_ && _); [discriminate|].
    apply bind_no_hang; [|discriminate]. generalize (list_prod p n). induction l as [|[x y] l IH]; [discriminate|].
    cbn [dfs_var_loop]. apply bind_no_hang; [unfold notAWitnessClause; destruct (_ || _); discriminate|]. intros cl _.
    apply bind_no_hang; [exact IH|discriminate].
  - apply bind_no_hang; [apply leafs_no_hang|]. intros [p n] _. destruct (_ && _); [discriminate|].
    apply bind_no_hang; [|discriminate]. apply quiet_not_hang, dfs_const_loop_total.
  - destruct pref; discriminate.
  - destruct pref; discriminate.
  - destruct pref; discriminate.
  - destruct (negb _); [discriminate|]. unfold first_feat. destruct (Dim _); discriminate.
  - destruct (negb _); [discriminate|]. unfold first_feat. destruct (Dim _); discriminate.
  - destruct (negb _); [discriminate|]. unfold first_feat. destruct (Dim _); discriminate.
  - destruct (negb _ || _); [discriminate|]. unfold first_feat. destruct (Dim _); discriminate.
Qed.

Definition live {A} (x : M A) : Prop := forall c, good_ctx c -> fst (x c) <> Hang.

Lemma live_bind : forall A B (x : M A) (f : A -> M B) Q, safe anything Q x -> live x -> (forall a, live (f a)) -> live (bind x f).
Proof.
  intros A B x f Q S Cx Cf c G. unfold bind. pose proof (Cx c G) as H. destruct (x c) as [r c'] eqn:EX. cbn [fst] in H.
  destruct (S c r c' G Logic.I EX H) as [V _]. destruct r; cbn [fst]; try congruence. apply Cf, V.
Qed.
Lemma live_bind_always : forall A B (x : M A) (f : A -> M B), live x -> (forall a, always_quiet (f a)) -> live (bind x f).
Proof.
  intros A B x f Cx Cf c G. unfold bind. pose proof (Cx c G) as H. destruct (x c) as [r c'] eqn:EX. cbn [fst] in H.
  destruct r; cbn [fst]; try congruence. apply quiet_not_hang, Cf.
Qed.
Lemma live_wrap : forall A p (x : M A), live x -> live (wrap p x).
Proof. intros A p x H c G. unfold wrap. specialize (H c G). destruct (x c) as [r c']. destruct r; cbn [fst] in *; congruence. Qed.
Lemma live_always : forall A (x : M A), always_quiet x -> live x.
Proof. intros A x H c _. apply quiet_not_hang, H. Qed.

Lemma loop_live : forall body dim base tgt, safe anything bounded body -> live body ->
  forall fuel it i acc c, good_ctx c -> (exists g, scopes (cScoper c) = base ++ [g] /\ sTarget g = tgt) ->
  it_ok dim it -> (unvisited (it_walk it) < fuel)%nat -> fst (forall_loop fuel body it i acc c) <> Hang.
Proof.
  intros body dim base tgt Sb Cb fuel. induction fuel as [|fuel IH]; intros it i acc c G S Iit F; [lia|].
  cbn [forall_loop]. destruct (Next_total dim it Iit) as (more & it1 & EN & I1 & U). unfold bind at 1, lift. rewrite EN.
  destruct more; [|discriminate].
  assert (SS : exists c1, m_SetScope i (it_t it1) c = (Ok tt, c1)).
  { unfold m_SetScope. pose proof (SetScope_ok (cScoper c) i (it_t it1)) as H. destruct (SetScope _ _ _) as [er s1]. cbn [fst] in H.
    rewrite H; [eauto|]. destruct S as (g & S & _). rewrite S. destruct base; discriminate. }
  destruct SS as (c1 & SS). destruct (turns_set base tgt c i (it_t it1) c1 G S SS) as [T1 V1].
  rewrite (bind_ok _ _ _ _ _ _ _ SS). unfold bind at 1.
  pose proof (Cb c1 (tn_good _ _ _ _ T1)) as Q.
  destruct (body c1) as [r2 c2] eqn:E2. cbn [fst] in Q.
  destruct (Sb c1 r2 c2 (tn_good _ _ _ _ T1) Logic.I E2 Q) as [V2 B2].
  pose proof (turns_trans _ _ _ _ _ T1 (evolves_turns base tgt c1 c2 V2 (tn_scopes _ _ _ _ T1))) as T12.
  destruct r2; cbn [fst]; try congruence. apply IH; auto; [apply T12|apply (tn_scopes _ _ _ _ T12)|lia].
Qed.

Theorem enc_no_hang : forall q, (forall k, ~ In (NodeC k) (atoms_of q)) -> live (enc q).
Proof.
  induction q as [|a|q IH|q1 IH1 q2 IH2|q1 IH1 q2 IH2|v q IH|k q IH]; intros D; cbn [enc].
  - intros c _. discriminate.
  - intros c [I J]. unfold enc_atom. pose proof (atom_no_hang c a J ltac:(intros k ->; apply (D k); simpl; auto)) as H.
    destruct (atom_enc c a) as [[b|es]|e| |]; try discriminate; [destruct (run_emits _ _); discriminate|congruence].
  - apply live_wrap. destruct (is_nil q); [apply live_always, always_fail|].
    apply live_bind_always; [apply IH, D|intros; apply always_Negate].
  - assert (D1 : forall k, ~ In (NodeC k) (atoms_of q1)) by (intros k H; apply (D k); cbn [atoms_of]; apply in_or_app; auto).
    assert (D2 : forall k, ~ In (NodeC k) (atoms_of q2)) by (intros k H; apply (D k); cbn [atoms_of]; apply in_or_app; auto).
    apply live_wrap. destruct (is_nil q1); [apply live_always, always_fail|]. destruct (is_nil q2); [apply live_always, always_fail|].
    eapply live_bind; [apply safe_wrap, safe_enc|apply live_wrap, IH1, D1|]. intros f1.
    apply live_bind_always; [apply live_wrap, IH2, D2|intros; apply always_ret].
  - assert (D1 : forall k, ~ In (NodeC k) (atoms_of q1)) by (intros k H; apply (D k); cbn [atoms_of]; apply in_or_app; auto).
    assert (D2 : forall k, ~ In (NodeC k) (atoms_of q2)) by (intros k H; apply (D k); cbn [atoms_of]; apply in_or_app; auto).
    apply live_wrap. destruct (is_nil q1); [apply live_always, always_fail|]. destruct (is_nil q2); [apply live_always, always_fail|].
    eapply live_bind; [apply safe_wrap, safe_enc|apply live_wrap, IH1, D1|]. intros f1.
    apply live_bind_always; [apply live_wrap, IH2, D2|]. intros f2.
    apply always_bind; [apply always_Negate|intros g1]. apply always_bind; [apply always_Negate|intros g2]. apply always_Negate.
  - apply live_wrap. destruct (is_nil q); [apply live_always, always_fail|].
    eapply live_bind; [apply safe_AddVar|intros c _; discriminate|intros u].
    eapply live_bind; [eapply safe_weaken; [apply safe_encodeI|intros; exact Logic.I|intros f vm H; exact H]| |intros f1].
    { intros c G. apply quiet_not_hang, (encodeI_calm (cModel c)); auto. }
    apply live_bind_always; [apply IH, D|intros; apply always_ret].
  - apply live_wrap. destruct (is_nil q); [apply live_always, always_fail|].
    intros c G. unfold bind at 1, m_AddScope. set (c1 := set_scoper c (AddScope (cScoper c) (cID k))).
    assert (G1 : good_ctx c1) by now apply AddScope_good.
    assert (S1 : exists g, scopes (cScoper c1) = scopes (cScoper c) ++ [g] /\ sTarget g = cID k) by (exists (mkScope (cID k) [] 0); auto).
    unfold defer_PopScope.
    match goal with |- fst (let (_, _) := ?x in _) <> Hang => destruct x as [r1 c2] eqn:E1 end.
    assert (Q : r1 <> Hang).
    { unfold bind, lift in E1. destruct (iter_total (Dim (cModel c1)) (Nodes (cModel c1))) as [(e & EI)|(it & EI & Iit & U)]; rewrite EI in E1.
      - injection E1 as <- <-. discriminate.
      - change r1 with (fst (r1, c2)). rewrite <- E1. eapply loop_live; eauto; [apply safe_enc|]. unfold forall_fuel. lia. }
    destruct r1 as [f|e| |]; try congruence; destruct (PopScope (cScoper c2)) as [[pe|] s2]; discriminate.
Qed.
