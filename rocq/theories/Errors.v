(* Errors: which components report one, and how it travels up a query. *)
From Verif Require Import GoBase GoLemmas Cnf Query Walk Atoms Logop Spec Meaning CnfSem QueryLemmas Sym AtomBase TreeLemmas WalkLemmas WalkConst Form AtomCnf Evolve Total Outcome.
Local Open Scope Z_scope.
Local Open Scope list_scope.

(* ---- components ---- *)

(* The value a component sees for a constant. *)
Definition seen_value (s : scoper) (k : QConst) : list FeatV := cVal (fst (ScopeConst s k)).

Lemma validate_iff : forall l i d, validate_from i d l = None <-> Forall (fun k => length (cVal k) = d) l.
Proof.
  induction l as [|k l IH]; intros i d; simpl; [split; auto|]. destruct (Nat.eqb_spec (length (cVal k)) d) as [E|E].
  - rewrite IH. split; [constructor; auto|]. intros H. now inversion H.
  - split; [discriminate|]. intros H. inversion H; congruence.
Qed.
Lemma validatePref_iff : forall p seen d, validatePref_from seen p d = None <->
  Forall (in_range d) p /\ NoDup p /\ (forall i, In i p -> ~ In i seen).
Proof.
  induction p as [|i p IH]; intros seen d; simpl.
  - split; auto. intros _. split; auto. split; [constructor|tauto].
  - destruct ((i <? 0) || (Z.of_nat d <=? i)) eqn:E.
    + split; [discriminate|]. intros [H _]. inversion H as [|? ? R _]; subst. unfold in_range in R. apply in_false in R. congruence.
    + apply out_false in E. destruct (existsb (Z.eqb i) seen) eqn:X.
      * split; [discriminate|]. intros (_ & _ & H). apply existsb_exists in X as (j & Hj & Ej). apply Z.eqb_eq in Ej as <-. exfalso. eapply H; eauto.
      * assert (NI : ~ In i seen) by (intros H; assert (Y : existsb (Z.eqb i) seen = true) by (apply existsb_exists; exists i; split; auto; apply Z.eqb_refl); congruence).
        rewrite IH. split.
        -- intros (A & B & C). split; [constructor; auto|]. split.
           ++ constructor; auto. intros H. apply (C i H). now left.
           ++ intros j [<-|Hj]; auto. intros Hs. apply (C j Hj). now right.
        -- intros (A & B & C). inversion A; inversion B; subst. split; auto. split; auto.
           intros j Hj [<-|Hs]; [tauto|]. apply (C j); auto.
Qed.
Lemma validatePref_valid : forall p d, validatePref p d = None <-> pref_valid d p.
Proof. intros p d. unfold validatePref, pref_valid. rewrite validatePref_iff. intuition. Qed.

Definition fails {A} (r : res A) : Prop := exists e, r = Err e.
Lemma fails_err : forall A e, fails (@Err A e). Proof. intros; eexists; eauto. Qed.

Ltac failing :=
  repeat first
    [ apply fails_err
    | match goal with
      | |- fails (rdo _ <- ScopeVar _ _ ;; _) => rewrite ScopeVar_ok by assumption; cbn [rbind]
      | |- fails (need ?o _ _) => destruct o; cbn [need]
      | |- fails (guard ?o _) => let E := fresh "G" in destruct o eqn:E; cbn [guard]
      end ].

(* A constant of the wrong dimension: an error, always. *)
Lemma atom_bad_const : forall c a k, sc_inv (cScoper c) -> In k (consts_of a) ->
  length (seen_value (cScoper c) k) <> Dim (cModel c) -> fails (atom_enc c a).
Proof.
  intros c a k J H N. unfold seen_value in N.
  assert (X : forall l, In (fst (ScopeConst (cScoper c) k)) l -> ValidateConstsDim (Dim (cModel c)) l = None -> False).
  { intros l Hl E. apply validate_iff in E. rewrite Forall_forall in E. apply N, E, Hl. }
  destruct a; cbn [consts_of] in H; try contradiction H; cbn [atom_enc]; cbv zeta; failing;
    try (exfalso; repeat (destruct H as [<-|H]; [eapply X; [|eassumption]; simpl; tauto|]); contradiction H).
  all: try (destruct (Nodes (cModel c)); failing;
    exfalso; repeat (destruct H as [<-|H]; [eapply X; [|eassumption]; simpl; tauto|]); contradiction H).
Qed.

(* A nil generator: an error, always. *)
Lemma atom_nil_gen : forall c a, sc_inv (cScoper c) -> ~ gens_ok a -> fails (atom_enc c a).
Proof.
  intros c a J N. destruct a; cbn [gens_ok] in N; try (exfalso; tauto); cbn [atom_enc]; cbv zeta;
    repeat match goal with g : gen1 |- _ => destruct g | g : gen2 |- _ => destruct g | g : gen3 |- _ => destruct g end; cbn [need];
    try apply fails_err; exfalso; apply N; try split; discriminate.
Qed.

(* A preference out of range or with a duplicate: an error, always. *)
Definition pref_of (a : atom) : list Z :=
  match a with HeprVV _ _ p _ | HeprVC _ _ p _ | HeprCV _ _ p _ | HeprCC _ _ p => p | _ => [] end.
Lemma atom_bad_pref : forall c a, sc_inv (cScoper c) -> ~ pref_valid (Dim (cModel c)) (pref_of a) -> fails (atom_enc c a).
Proof.
  intros c a J N.
  assert (X : pref_valid (Dim (cModel c)) []) by (split; constructor).
  destruct a; cbn [pref_of] in N; try (exfalso; tauto); cbn [atom_enc]; cbv zeta; failing; exfalso; apply N, validatePref_valid; auto.
Qed.

(* What looks at the nodes before anything else. *)
Lemma leafs_invalid : forall dim nodes, ~ Forall (node_valid dim (length nodes)) nodes -> fails (leafsAsConsts dim nodes).
Proof.
  intros dim nodes N. unfold leafsAsConsts. destruct (validateNodes _ _ _) eqn:V; [apply fails_err|]. exfalso. apply N, validateNodes_iff, V.
Qed.
Lemma iter_invalid : forall dim nodes, ~ Forall (node_valid dim (length nodes)) nodes -> fails (newNodeAsValuesIter dim nodes).
Proof.
  intros dim nodes N. unfold newNodeAsValuesIter. destruct nodes as [|n l] eqn:E; [apply fails_err|]. rewrite <- E in *.
  destruct (validateNodes _ _ _) eqn:V; [apply fails_err|]. exfalso. apply N, validateNodes_iff, V.
Qed.
Lemma atom_bad_nodes : forall c a, sc_inv (cScoper c) -> match a with DfsV _ | DfsC _ => True | _ => False end ->
  ~ Forall (node_valid (Dim (cModel c)) (length (Nodes (cModel c)))) (Nodes (cModel c)) -> fails (atom_enc c a).
Proof.
  intros c a J H N. destruct (leafs_invalid _ _ N) as (e & E). destruct a; try contradiction; cbn [atom_enc]; cbv zeta; failing; rewrite E; apply fails_err.
Qed.

(* ---- queries ---- *)

(* q' is q or part of q, under quantifiers with the given IDs, outermost first. *)
Inductive part : list string -> query -> query -> Prop :=
| part_self : forall q, part [] q q
| part_not : forall ids p q, part ids p q -> part ids p (QNot q)
| part_and1 : forall ids p q1 q2, part ids p q1 -> part ids p (QAnd q1 q2)
| part_and2 : forall ids p q1 q2, part ids p q2 -> part ids p (QAnd q1 q2)
| part_or1 : forall ids p q1 q2, part ids p q1 -> part ids p (QOr q1 q2)
| part_or2 : forall ids p q1 q2, part ids p q2 -> part ids p (QOr q1 q2)
| part_with : forall ids p v q, part ids p q -> part ids p (QWith v q)
| part_all : forall ids p c q, part ids p q -> part (cID c :: ids) p (QAll c q).

Lemma bind_inv : forall A B (x : M A) (f : A -> M B) c b c', bind x f c = (Ok b, c') ->
  exists a c1, x c = (Ok a, c1) /\ f a c1 = (Ok b, c').
Proof. intros A B x f c b c' H. unfold bind in H. destruct (x c) as [[a|e| |] c1]; try discriminate. eauto. Qed.
Lemma wrap_inv : forall A p (x : M A) c a c', wrap p x c = (Ok a, c') -> x c = (Ok a, c').
Proof. intros A p x c a c' H. unfold wrap in H. destruct (x c) as [[b|e| |] c1]; congruence. Qed.

Lemma first_Next : forall dim nodes it, newNodeAsValuesIter dim nodes = Ok it -> exists it', Next it = Ok (true, it').
Proof.
  intros dim nodes it H. unfold newNodeAsValuesIter in H. destruct nodes as [|n l]; [discriminate|].
  destruct (validateNodes _ _ _); [discriminate|]. injection H as <-. unfold Next, next_fuel. simpl. eauto.
Qed.

(* When a query is encoded, every part of it has been encoded. *)
Theorem part_encoded : forall ids p q, part ids p q -> forall c f c', good_ctx c -> enc q c = (Ok f, c') ->
  exists c1 g c2 ext, good_ctx c1 /\ cModel c1 = cModel c /\
    scopes (cScoper c1) = scopes (cScoper c) ++ ext /\ map sTarget ext = ids /\ enc p c1 = (Ok g, c2).
Proof.
  induction 1 as [q|ids p q P IH|ids p q1 q2 P IH|ids p q1 q2 P IH|ids p q1 q2 P IH|ids p q1 q2 P IH|ids p v q P IH|ids p k q P IH];
    intros c f c' G E; cbn [enc] in *.
  - exists c, f, c', []. rewrite app_nil_r. auto.
  - apply wrap_inv in E. destruct (is_nil q); [discriminate|]. apply bind_inv in E as (g & c1 & E1 & _). eapply IH; eauto.
  - apply wrap_inv in E. destruct (is_nil q1); [discriminate|]. destruct (is_nil q2); [discriminate|].
    apply bind_inv in E as (g & c1 & E1 & _). apply wrap_inv in E1. eapply IH; eauto.
  - apply wrap_inv in E. destruct (is_nil q1); [discriminate|]. destruct (is_nil q2); [discriminate|].
    apply bind_inv in E as (g & c1 & E1 & E). apply wrap_inv in E1. apply bind_inv in E as (g2 & c2 & E2 & _). apply wrap_inv in E2.
    destruct (safe_enc q1 c _ c1 G Logic.I E1) as [V _]; [discriminate|].
    destruct (IH c1 _ c2 (ev_good _ _ V) E2) as (x & g' & y & ext & A1 & A2 & A3 & A4 & A5).
    exists x, g', y, ext. rewrite A2, A3, (ev_model _ _ V), (ev_scopes _ _ V). auto.
  - apply wrap_inv in E. destruct (is_nil q1); [discriminate|]. destruct (is_nil q2); [discriminate|].
    apply bind_inv in E as (g & c1 & E1 & _). apply wrap_inv in E1. eapply IH; eauto.
  - apply wrap_inv in E. destruct (is_nil q1); [discriminate|]. destruct (is_nil q2); [discriminate|].
    apply bind_inv in E as (g & c1 & E1 & E). apply wrap_inv in E1. apply bind_inv in E as (g2 & c2 & E2 & _). apply wrap_inv in E2.
    destruct (safe_enc q1 c _ c1 G Logic.I E1) as [V _]; [discriminate|].
    destruct (IH c1 _ c2 (ev_good _ _ V) E2) as (x & g' & y & ext & A1 & A2 & A3 & A4 & A5).
    exists x, g', y, ext. rewrite A2, A3, (ev_model _ _ V), (ev_scopes _ _ V). auto.
  - apply wrap_inv in E. destruct (is_nil q); [discriminate|].
    apply bind_inv in E as (u & c1 & E1 & E). apply bind_inv in E as (g & c2 & E2 & E). apply bind_inv in E as (g2 & c3 & E3 & _).
    destruct (safe_AddVar v c _ c1 G Logic.I E1) as [V1 _]; [discriminate|].
    destruct (safe_encodeI v c1 _ c2 (ev_good _ _ V1) Logic.I E2) as [V2 _]; [discriminate|].
    pose proof (evolves_trans _ _ _ V1 V2) as V.
    destruct (IH c2 _ c3 (ev_good _ _ V) E3) as (x & g' & y & ext & A1 & A2 & A3 & A4 & A5).
    exists x, g', y, ext. rewrite A2, A3, (ev_model _ _ V), (ev_scopes _ _ V). auto.
  - apply wrap_inv in E. destruct (is_nil q); [discriminate|]. unfold bind at 1, m_AddScope in E.
    set (c1 := set_scoper c (AddScope (cScoper c) (cID k))) in *.
    assert (G1 : good_ctx c1) by now apply AddScope_good.
    assert (S1 : exists g, scopes (cScoper c1) = scopes (cScoper c) ++ [g] /\ sTarget g = cID k) by (exists (mkScope (cID k) [] 0); auto).
    unfold defer_PopScope in E.
    match type of E with (let (_, _) := ?x in _) = _ => destruct x as [r1 c2] eqn:E1 end.
    assert (R : exists f1, r1 = Ok f1).
    { destruct r1; eauto; destruct (PopScope (cScoper c2)) as [[pe|] s2]; try discriminate. }
    destruct R as (f1 & ->). apply bind_inv in E1 as (it & c1' & EI & E1). unfold lift in EI.
    assert (c1' = c1) as -> by congruence. assert (EI' : newNodeAsValuesIter (Dim (cModel c1)) (Nodes (cModel c1)) = Ok it) by congruence.
    destruct (first_Next _ _ _ EI') as (it' & EN). unfold forall_fuel in E1. rewrite Nat.add_comm in E1. simpl Nat.add in E1. cbn [forall_loop] in E1.
    unfold bind at 1, lift in E1. rewrite EN in E1. apply bind_inv in E1 as (u & c3 & E3 & E1). apply bind_inv in E1 as (g & c4 & E4 & _).
    destruct u. destruct (turns_set _ _ c1 0 (it_t it') c3 G1 S1 E3) as [T _].
    destruct (IH c3 _ c4 (tn_good _ _ _ _ T) E4) as (x & g' & y & ext & A1 & A2 & A3 & A4 & A5).
    destruct (tn_scopes _ _ _ _ T) as (g0 & B1 & B2).
    exists x, g', y, (g0 :: ext). split; auto. split; [rewrite A2, (tn_model _ _ _ _ T); reflexivity|].
    split; [rewrite A3, B1, <- app_assoc; reflexivity|]. split; auto. simpl. now rewrite B2, A4.
Qed.

Lemma find_scope_app : forall l l' id, find_scope (l ++ l') id = match find_scope l id with Some g => Some g | None => find_scope l' id end.
Proof. induction l as [|g l IH]; intros l' id; simpl; auto. destruct (String.eqb (sTarget g) id); auto. Qed.
Lemma find_scope_none : forall l id, ~ In id (map sTarget l) -> find_scope l id = None.
Proof. induction l as [|g l IH]; intros id H; simpl in *; auto. destruct (String.eqb_spec (sTarget g) id); [tauto|apply IH; tauto]. Qed.
(* Quantifiers with other IDs do not change what a constant stands for. *)
Lemma seen_value_app : forall s s' ext k, scopes s' = scopes s ++ ext -> ~ In (cID k) (map sTarget ext) ->
  seen_value s' k = seen_value s k.
Proof.
  intros s s' ext k E H. unfold seen_value, ScopeConst. rewrite E, find_scope_app, (find_scope_none ext) by auto. destruct (find_scope (scopes s) (cID k)); auto.
Qed.

(* Malformed parts: nil, a constant of the wrong dimension that no quantifier
   of the query binds, a nil generator, an invalid preference. *)
Inductive malformed (c : ctx) (ids : list string) : query -> Prop :=
| mal_nil : malformed c ids QNil
| mal_const : forall a k, In k (consts_of a) -> ~ In (cID k) ids ->
    length (seen_value (cScoper c) k) <> Dim (cModel c) -> malformed c ids (QAtom a)
| mal_gen : forall a, ~ gens_ok a -> malformed c ids (QAtom a)
| mal_pref : forall a, ~ pref_valid (Dim (cModel c)) (pref_of a) -> malformed c ids (QAtom a).

Theorem malformed_no_cnf : forall c q ids p, good_ctx c -> part ids p q -> malformed c ids p ->
  forall f c', enc q c <> (Ok f, c').
Proof.
  intros c q ids p G P Mf f c' E.
  destruct (part_encoded ids p q P c f c' G E) as (c1 & g & c2 & ext & G1 & M1 & S1 & T1 & E1).
  assert (X : forall a, p = QAtom a -> ~ fails (atom_enc c1 a)).
  { intros a -> (e & F). cbn [enc] in E1. unfold enc_atom in E1. rewrite F in E1. discriminate. }
  destruct Mf as [|a k Hk Hi Hl|a Hg|a Hp].
  - cbn [enc] in E1. unfold lift in E1. discriminate.
  - apply (X a eq_refl). eapply atom_bad_const; [apply G1|exact Hk|].
    rewrite (seen_value_app _ _ ext k S1) by (rewrite T1; exact Hi). rewrite M1. exact Hl.
  - apply (X a eq_refl), atom_nil_gen; [apply G1|exact Hg].
  - apply (X a eq_refl), atom_bad_pref; [apply G1|]. rewrite M1. exact Hp.
Qed.

Lemma part_atoms : forall q a, In a (atoms_of q) -> exists ids, part ids (QAtom a) q.
Proof.
  induction q as [|b|q IH|q1 IH1 q2 IH2|q1 IH1 q2 IH2|v q IH|k q IH]; intros a H; cbn [atoms_of] in H; try contradiction.
  - destruct H as [<-|[]]. exists []. constructor.
  - destruct (IH a H) as (ids & P). exists ids. now constructor.
  - apply in_app_or in H as [H|H]; [destruct (IH1 a H) as (ids & P)|destruct (IH2 a H) as (ids & P)]; exists ids; now constructor.
  - apply in_app_or in H as [H|H]; [destruct (IH1 a H) as (ids & P)|destruct (IH2 a H) as (ids & P)]; exists ids; now constructor.
  - destruct (IH a H) as (ids & P). exists ids. now constructor.
  - destruct (IH a H) as (ids & P). exists (cID k :: ids). now constructor.
Qed.

(* So on a decision tree the outcome is an error. *)
Theorem malformed_error : forall t c q ids p, good_ctx c -> is_dtree (cModel c) t -> q <> QNil ->
  (forall a, In a (atoms_of q) -> has_pref a) -> part ids p q -> malformed c ids p ->
  exists e c', enc q c = (Err e, c').
Proof.
  intros t c q ids p G T NN H P Mf.
  pose proof (enc_outcome (cModel c) q NN (fun a Ha => dtree_demands _ t a T (H a Ha)) c G eq_refl) as Q.
  destruct (enc q c) as [r c'] eqn:E. cbn [fst] in Q. destruct Q as [(f & ->)|(e & ->)]; [|eauto].
  exfalso. eapply malformed_no_cnf; eauto.
Qed.
