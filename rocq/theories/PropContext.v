(* Properties C21, C30-C33, C36, C37: logical operators, errors, and what
   Encoding does to the context. *)
From Verif Require Import GoBase GoLemmas Cnf Query Walk Atoms Logop Spec Meaning CnfSem QueryLemmas Sym AtomBase TreeLemmas WalkLemmas WalkConst Form Master AtomCnf Evolve Total Outcome Errors.
Local Open Scope string_scope.
Local Open Scope Z_scope.
Local Open Scope list_scope.

(* ---- contexts and queries for the concrete cases ---- *)

(* Feature 0 decides. *)
Definition stump : model := mkModel 2 [mkNode false 0 1 2; mkNode false 0 (-1) (-1); mkNode true 0 (-1) (-1)].
Definition stump_tree : tree := Split 0 0 (Leaf 1 false) (Leaf 2 true).
Lemma stump_is_dtree : is_dtree stump stump_tree.
Proof.
  split; [simpl; lia|]. split; [reflexivity|]. split.
  - split; [lia|]. split; [eexists; split; [reflexivity|]; repeat split|].
    split; (split; [lia|]; eexists; split; [reflexivity|]; split; reflexivity).
  - split; [repeat constructor; simpl; intuition discriminate|]. split; [reflexivity|].
    split; [split; [lia|simpl; lia]|]. split; [simpl; tauto|]. split; exact I.
Qed.
Definition tag (p v : string) : string := p ++ String (Ascii.ascii_of_nat 30) v.
(* not trivial: a quantifier, a declaration inside it, an Or, a Not, a counter *)
Definition sample : query :=
  QWith "x" (QOr (QNot (QAtom (LelVC "x" (mkQConst "k" [ONE; BOT]) (Some (tag "botc")))))
                 (QAll (mkQConst "n" []) (QWith "y" (QAnd (QAtom (SubsVC "y" (mkQConst "n" []))) (QAtom (SubsVV "x" "y")))))).
(* a context that has encoded something before *)
Definition used_ctx : ctx := snd (enc sample (BasicQContext stump)).
(* the context in which the body of a quantifier is encoded *)
Definition inner_ctx : ctx :=
  set_scoper used_ctx (AddVar (snd (SetScope (AddScope (cScoper used_ctx) "n") 1 [ONE; BOT])) "y").

Lemma fresh_good : forall m, good_ctx (BasicQContext m).
Proof. intros m. split; [apply vm_inv_init|apply sc_inv_init]. Qed.
Lemma used_good : good_ctx used_ctx.
Proof.
  destruct (enc sample (BasicQContext stump)) as [r c'] eqn:E.
  assert (N : r <> Hang) by (apply (f_equal fst) in E; cbn [fst] in E; rewrite <- E; vm_compute; discriminate).
  destruct (safe_enc sample (BasicQContext stump) r c' (fresh_good _) Logic.I E N) as [V _]. unfold used_ctx. rewrite E. apply V.
Qed.
Lemma inner_good : good_ctx inner_ctx.
Proof.
  unfold inner_ctx. generalize used_good. generalize used_ctx. intros c [A B]. split; [exact A|].
  apply sc_inv_AddVar, sc_inv_SetScope, sc_inv_AddScope, B.
Qed.

(* ---- C21 ---- *)

(* meaning of g from the meanings of f1 and f2: the consistency clauses are kept
   as they are, the semantic ones combined; new variables are definitions *)
Definition combines (vm : varman) (fs : list CNF) (g : CNF) (comb : list bool -> bool) : Prop :=
  (forall r, Con r g = true -> (forall f, In f fs -> Con r f = true) /\ Sem r g = comb (map (Sem r) fs)) /\
  (forall r, (forall f, In f fs -> Con r f = true) -> exists r', agree (vm_topv vm) r r' /\ Con r' g = true).

Lemma neg_step : forall f c g c', good_ctx c -> bounded f (cVM c) -> m_Negate f c = (Ok g, c') ->
  evolves c c' /\ bounded g (cVM c') /\ vm_vars (cVM c') = vm_vars (cVM c) /\
  (forall r, Con r g = true -> Con r f = true /\ Sem r g = negb (Sem r f)) /\
  (forall r, Con r f = true -> exists r', agree (vm_topv (cVM c)) r r' /\ Con r' g = true).
Proof.
  intros f c g c' G B E. destruct (safe_Negate f c _ c' G B E) as [V Q]; [discriminate|]. specialize (Q g eq_refl).
  split; auto. split; auto. destruct c as [s vm m]. cbn [cVM] in *. rewrite neg_m in E.
  destruct (negF_spec f vm (proj1 G) (proj1 B) (proj2 B)) as (_ & _ & N3 & _ & _ & N6 & N7).
  apply pair_equal_spec in E as [E1 E2]. subst c'. cbn [cVM]. assert (g = fst (negF f vm)) as -> by congruence. auto.
Qed.

Theorem C21_not : forall q c g c', good_ctx c -> enc (QNot q) c = (Ok g, c') ->
  exists f c1, enc q c = (Ok f, c1) /\ evolves c c1 /\ bounded f (cVM c1) /\ evolves c1 c' /\
    combines (cVM c1) [f] g (fun l => negb (nth 0 l false)).
Proof.
  intros q c g c' G E. cbn [enc] in E. apply wrap_inv in E. destruct (is_nil q) eqn:N; [discriminate|].
  apply bind_inv in E as (f & c1 & E1 & E).
  destruct (safe_enc q c _ c1 G Logic.I E1) as [V B]; [discriminate|]. specialize (B f eq_refl).
  destruct (neg_step f c1 g c' (ev_good _ _ V) B E) as (V' & _ & _ & N6 & N7).
  exists f, c1. split; auto. split; auto. split; auto. split; auto. split.
  - intros r Hr. destruct (N6 r Hr) as [A1 A2]. split; [intros x [<-|[]]; auto|exact A2].
  - intros r Hr. apply N7, Hr. now left.
Qed.
Print Assumptions C21_not.

Theorem C21_and : forall q1 q2 c g c', good_ctx c -> enc (QAnd q1 q2) c = (Ok g, c') ->
  exists f1 c1 f2, enc q1 c = (Ok f1, c1) /\ enc q2 c1 = (Ok f2, c') /\
    combines (cVM c') [f1; f2] g (fun l => nth 0 l false && nth 1 l false).
Proof.
  intros q1 q2 c g c' G E. cbn [enc] in E. apply wrap_inv in E. destruct (is_nil q1); [discriminate|]. destruct (is_nil q2); [discriminate|].
  apply bind_inv in E as (f1 & c1 & E1 & E). apply wrap_inv in E1. apply bind_inv in E as (f2 & c2 & E2 & E). apply wrap_inv in E2.
  injection E as <- <-. exists f1, c1, f2. split; auto. split; auto. split.
  - intros r. rewrite Con_Conjunction, Sem_Conjunction, andb_true_iff. intros [A B]. split; [intros x [<-|[<-|[]]]; auto|reflexivity].
  - intros r H. exists r. split; [apply agree_refl|]. rewrite Con_Conjunction, !H; simpl; auto.
Qed.
Print Assumptions C21_and.

Theorem C21_or : forall q1 q2 c g c', good_ctx c -> enc (QOr q1 q2) c = (Ok g, c') ->
  exists f1 c1 f2 c2, enc q1 c = (Ok f1, c1) /\ enc q2 c1 = (Ok f2, c2) /\ evolves c2 c' /\
    combines (cVM c2) [f1; f2] g (fun l => nth 0 l false || nth 1 l false).
Proof.
  intros q1 q2 c g c' G E. cbn [enc] in E. apply wrap_inv in E. destruct (is_nil q1); [discriminate|]. destruct (is_nil q2); [discriminate|].
  apply bind_inv in E as (f1 & c1 & E1 & E). apply wrap_inv in E1. apply bind_inv in E as (f2 & c2 & E2 & E). apply wrap_inv in E2.
  apply bind_inv in E as (g1 & c3 & E3 & E). apply bind_inv in E as (g2 & c4 & E4 & E).
  destruct (safe_enc q1 c _ c1 G Logic.I E1) as [V1 B1]; [discriminate|]. specialize (B1 f1 eq_refl).
  destruct (safe_enc q2 c1 _ c2 (ev_good _ _ V1) Logic.I E2) as [V2 B2]; [discriminate|]. specialize (B2 f2 eq_refl).
  pose proof (bounded_ext _ _ _ (ev_vm _ _ V2) B1) as B12.
  destruct (neg_step f1 c2 g1 c3 (ev_good _ _ V2) B12 E3) as (V3 & B3 & _ & N6 & N7).
  pose proof (bounded_ext _ _ _ (ev_vm _ _ V3) B2) as B23.
  destruct (neg_step f2 c3 g2 c4 (ev_good _ _ V3) B23 E4) as (V4 & B4 & _ & L6 & L7).
  pose proof (bounded_Conj _ _ _ (bounded_ext _ _ _ (ev_vm _ _ V4) B3) B4) as BC.
  destruct (neg_step _ c4 g c' (ev_good _ _ V4) BC E) as (V5 & _ & _ & K6 & K7).
  exists f1, c1, f2, c2. split; auto. split; auto. split; [eapply evolves_trans; [exact V3|]; eapply evolves_trans; eauto|].
  split.
  - intros r Hr. destruct (K6 r Hr) as [A1 A2]. rewrite Con_Conjunction, andb_true_iff in A1. destruct A1 as [A1 A3].
    rewrite Sem_Conjunction in A2. destruct (N6 r A1) as [X1 X2]. destruct (L6 r A3) as [Y1 Y2].
    split; [intros x [<-|[<-|[]]]; auto|]. rewrite A2, X2, Y2. cbn [map nth]. destruct (Sem r f1), (Sem r f2); reflexivity.
  - intros r H. destruct (N7 r (H f1 (or_introl eq_refl))) as (r1 & R1 & R2).
    assert (C2 : Con r1 f2 = true).
    { rewrite (Con_agree (vm_topv (cVM c2)) r1 r f2); [apply H; simpl; auto|apply B2|apply B2|apply agree_sym; exact R1]. }
    destruct (L7 r1 C2) as (r2 & R3 & R4).
    assert (C3 : Con r2 g1 = true).
    { rewrite (Con_agree _ r2 r1 _ (proj1 B3) (proj2 B3) (agree_sym _ _ _ R3)); exact R2. }
    destruct (K7 r2) as (r3 & R5 & R6); [rewrite Con_Conjunction, C3, R4; reflexivity|].
    exists r3. split; [|exact R6]. eapply agree_trans; [exact R1|]. eapply agree_trans; [eapply agree_weaken; [|exact R3]; apply (ev_vm _ _ V3)|].
    eapply agree_weaken; [|exact R5]. apply (vm_ext_trans _ _ _ (ev_vm _ _ V3) (ev_vm _ _ V4)).
Qed.
Print Assumptions C21_or.

(* The operators succeed whenever their operands do. *)
Theorem C21_succeeds : forall q1 q2 c f1 c1 f2 c2, enc q1 c = (Ok f1, c1) -> enc q2 c1 = (Ok f2, c2) ->
  (exists g c', enc (QNot q1) c = (Ok g, c')) /\ (exists g c', enc (QAnd q1 q2) c = (Ok g, c')) /\
  (exists g c', enc (QOr q1 q2) c = (Ok g, c')).
Proof.
  intros q1 q2 c f1 c1 f2 c2 E1 E2.
  assert (N1 : is_nil q1 = false) by (destruct q1; try reflexivity; discriminate E1).
  assert (N2 : is_nil q2 = false) by (destruct q2; try reflexivity; discriminate E2).
  assert (Ng : forall f x, exists g y, m_Negate f x = (Ok g, y)) by (intros f [s vm m]; rewrite neg_m; eauto).
  split; [|split]; cbn [enc]; rewrite ?N1, ?N2.
  - destruct (Ng f1 c1) as (g & y & E). exists g, y. apply wrap_ok. now rewrite (bind_ok _ _ _ _ _ _ _ E1).
  - exists (Conjunction f1 f2), c2. apply wrap_ok. rewrite (bind_ok _ _ _ _ _ _ _ (wrap_ok _ _ _ _ _ _ E1)), (bind_ok _ _ _ _ _ _ _ (wrap_ok _ _ _ _ _ _ E2)). reflexivity.
  - destruct (Ng f1 c2) as (g1 & y1 & G1). destruct (Ng f2 y1) as (g2 & y2 & G2). destruct (Ng (Conjunction g1 g2) y2) as (g3 & y3 & G3).
    exists g3, y3. apply wrap_ok. rewrite (bind_ok _ _ _ _ _ _ _ (wrap_ok _ _ _ _ _ _ E1)), (bind_ok _ _ _ _ _ _ _ (wrap_ok _ _ _ _ _ _ E2)).
    rewrite (bind_ok _ _ _ _ _ _ _ G1), (bind_ok _ _ _ _ _ _ _ G2). exact G3.
Qed.
Print Assumptions C21_succeeds.

Example C21_case : exists g c', enc (QOr (QNot sample) (QAnd sample (QAtom (FullV "x")))) inner_ctx = (Ok g, c') /\ good_ctx inner_ctx /\ cClauses g <> [] /\ sClauses g <> [].
Proof. eexists. eexists. split; [vm_compute; reflexivity|]. split; [apply inner_good|]. vm_compute. split; discriminate. Qed.

(* ---- C30 ---- *)

Theorem C30_component : forall c a k, good_ctx c -> In k (consts_of a) ->
  length (seen_value (cScoper c) k) <> Dim (cModel c) -> exists e, enc (QAtom a) c = (Err e, c).
Proof.
  intros c a k G H N. destruct (atom_bad_const c a k (proj2 G) H N) as (e & E). exists e. cbn [enc]. unfold enc_atom. now rewrite E.
Qed.
Print Assumptions C30_component.

(* Anywhere in a query, not bound by a quantifier of the query. *)
Theorem C30_query : forall c q ids a k, good_ctx c -> part ids (QAtom a) q -> In k (consts_of a) -> ~ In (cID k) ids ->
  length (seen_value (cScoper c) k) <> Dim (cModel c) ->
  (forall f c', enc q c <> (Ok f, c')) /\
  (forall t, is_dtree (cModel c) t -> (forall b, In b (atoms_of q) -> has_pref b) -> exists e c', enc q c = (Err e, c')).
Proof.
  intros c q ids a k G P H NI N. assert (Mf : malformed c ids (QAtom a)) by (eapply mal_const; eauto). split.
  - eapply malformed_no_cnf; eauto.
  - intros t T HP. eapply malformed_error; eauto. intros ->. inversion P.
Qed.
Print Assumptions C30_query.

Example C30_case :
  let bad := mkQConst "k" [ONE] in
  let q := QNot (QAll (mkQConst "n" []) (QAnd (QAtom (FullC (mkQConst "n" []))) (QAtom (SubsVC "x" bad)))) in
  good_ctx inner_ctx /\ part ["n"] (QAtom (SubsVC "x" bad)) q /\ ~ In (cID bad) ["n"] /\
  length (seen_value (cScoper inner_ctx) bad) <> Dim (cModel inner_ctx) /\
  fst (enc q inner_ctx) = Err "Not: ForAllGuarded: And: Q2: constant1: wrong dim 1 (2 feats in context)".
Proof.
  cbv zeta. split; [apply inner_good|]. split; [apply part_not, (part_all [] _ (mkQConst "n" [])), part_and2, part_self|]. split; [simpl; intuition discriminate|]. split; [vm_compute; discriminate|].
  vm_compute. reflexivity.
Qed.

(* ---- C31 ---- *)

Theorem C31_nil_context : forall q, q <> QNil -> exists e, Encoding q None = (Err e, None).
Proof. intros [|a|q|q1 q2|q1 q2|v q|k q] H; cbn [Encoding enc_nilctx]; eauto. congruence. Qed.
Print Assumptions C31_nil_context.

Theorem C31_nil_child : forall c q,
  (exists e c', enc (QNot QNil) c = (Err e, c')) /\
  (exists e c', enc (QAnd QNil q) c = (Err e, c')) /\ (exists e c', enc (QAnd q QNil) c = (Err e, c')) /\
  (exists e c', enc (QOr QNil q) c = (Err e, c')) /\ (exists e c', enc (QOr q QNil) c = (Err e, c')) /\
  (forall v, exists e c', enc (QWith v QNil) c = (Err e, c')) /\ (forall k, exists e c', enc (QAll k QNil) c = (Err e, c')).
Proof.
  intros c q. cbn [enc is_nil]. unfold wrap, fail.
  split; [eauto|]. split; [eauto|]. split; [destruct (is_nil q); eauto|]. split; [eauto|]. split; [destruct (is_nil q); eauto|].
  split; intros; eauto.
Qed.
Print Assumptions C31_nil_child.

Theorem C31_nil_generator : forall c a, good_ctx c -> ~ gens_ok a -> exists e, enc (QAtom a) c = (Err e, c).
Proof. intros c a [_ J] H. destruct (atom_nil_gen c a J H) as (e & E). exists e. cbn [enc]. unfold enc_atom. now rewrite E. Qed.
Print Assumptions C31_nil_generator.

(* A nil child, a nil generator or an invalid preference anywhere. *)
Theorem C31_query : forall c q ids p, good_ctx c -> part ids p q ->
  p = QNil \/ (exists a, p = QAtom a /\ (~ gens_ok a \/ ~ pref_valid (Dim (cModel c)) (pref_of a))) ->
  (forall f c', enc q c <> (Ok f, c')) /\
  (forall t, is_dtree (cModel c) t -> q <> QNil -> (forall b, In b (atoms_of q) -> has_pref b) -> exists e c', enc q c = (Err e, c')).
Proof.
  intros c q ids p G P H.
  assert (Mf : malformed c ids p) by (destruct H as [->|(a & -> & [H|H])]; [apply mal_nil|apply mal_gen, H|apply mal_pref, H]).
  split; [eapply malformed_no_cnf; eauto|]. intros t T NN HP. eapply malformed_error; eauto.
Qed.
Print Assumptions C31_query.

(* The error of a sub-query is returned by the operator around it, with the
   operator's name in front. *)
Theorem C31_propagates : forall e c c1 q1,
  enc q1 c = (Err e, c1) ->
  enc (QNot q1) c = (Err ("Not: " ++ e), c1) /\
  (forall q2, q2 <> QNil -> enc (QAnd q1 q2) c = (Err ("And: " ++ "Q1: " ++ e), c1)) /\
  (forall q2, q2 <> QNil -> enc (QOr q1 q2) c = (Err ("Or: " ++ "Q1: " ++ e), c1)) /\
  (forall q0 f0 c0, enc q0 c0 = (Ok f0, c) -> enc (QAnd q0 q1) c0 = (Err ("And: " ++ "Q2: " ++ e), c1)) /\
  (forall q0 f0 c0, enc q0 c0 = (Ok f0, c) -> enc (QOr q0 q1) c0 = (Err ("Or: " ++ "Q2: " ++ e), c1)).
Proof.
  intros e c c1 q1 E.
  assert (N1 : is_nil q1 = false) by (destruct q1; try reflexivity; discriminate E).
  assert (N : forall q, q <> QNil -> is_nil q = false) by (intros []; simpl; congruence).
  split; [|split; [|split; [|split]]].
  - cbn [enc]. rewrite N1. unfold wrap, bind. now rewrite E.
  - intros q2 H. cbn [enc]. rewrite N1, (N q2 H). unfold wrap, bind. now rewrite E.
  - intros q2 H. cbn [enc]. rewrite N1, (N q2 H). unfold wrap, bind. now rewrite E.
  - intros q0 f0 c0 E0. cbn [enc]. rewrite N1. rewrite (N q0) by (intros ->; discriminate E0). unfold wrap, bind. now rewrite E0, E.
  - intros q0 f0 c0 E0. cbn [enc]. rewrite N1. rewrite (N q0) by (intros ->; discriminate E0). unfold wrap, bind. now rewrite E0, E.
Qed.
Print Assumptions C31_propagates.

Example C31_case :
  let q := QOr (QAtom (FullV "x")) (QWith "y" (QAnd (QNot QNil) (QAtom (AllV "y" true None)))) in
  good_ctx used_ctx /\ part [] QNil q /\ part [] (QAtom (AllV "y" true None)) q /\ ~ gens_ok (AllV "y" true None) /\
  fst (enc q used_ctx) = Err "Or: Q2: WithVar: And: Q1: Not: Invalid encoding of nil child".
Proof.
  cbv zeta. split; [apply used_good|]. split; [apply part_or2, part_with, part_and1, part_not, part_self|].
  split; [apply part_or2, part_with, part_and2, part_self|]. split; [simpl; auto|]. vm_compute. reflexivity.
Qed.

(* ---- C32 ---- *)

Lemma ScopeVar_recorded : forall s s' v n, scopes s' = scopes s -> slookup (svars s) v = Some n -> slookup (svars s') v = Some n ->
  ScopeVar s' v = ScopeVar s v.
Proof. intros s s' v n E H H'. unfold ScopeVar. now rewrite E, H, H'. Qed.

Theorem C32_scopes_restored : forall q c r c', good_ctx c -> enc q c = (r, c') -> r <> Hang ->
  scopes (cScoper c') = scopes (cScoper c) /\
  (forall k, ScopeConst (cScoper c') k = ScopeConst (cScoper c) k) /\
  (forall v, slookup (svars (cScoper c)) v <> None -> ScopeVar (cScoper c') v = ScopeVar (cScoper c) v) /\
  (scopes (cScoper c) = [] -> cScoper c' = cScoper c).
Proof.
  intros q c r c' G E N. destruct (safe_enc q c r c' G Logic.I E N) as [V _].
  pose proof (ev_scopes _ _ V) as S. split; [exact S|]. split; [intros k; unfold ScopeConst; now rewrite S|]. destruct (ev_vars _ _ V) as (l & A1 & A2). split.
  - intros v Hv. destruct (slookup (svars (cScoper c)) v) as [n|] eqn:Es; [|congruence].
    apply (ScopeVar_recorded _ _ v n); auto. rewrite A1, slookup_app. destruct (slookup l v) as [n'|] eqn:El; [|exact Es].
    exfalso. apply slookup_In in El. rewrite Forall_forall in A2. destruct (A2 _ El) as (_ & _ & X). cbn [fst] in X. congruence.
  - intros S0. assert (l = []) as ->.
    { destruct l as [|x l]; auto. inversion A2 as [|? ? (X & _) _]. congruence. }
    destruct (cScoper c') as [a b], (cScoper c) as [a0 b0]. cbn [scopes svars app] in *. congruence.
Qed.
Print Assumptions C32_scopes_restored.

(* A quantifier restores the whole scoper, at any depth. *)
Theorem C32_quantifier : forall k q c r c', good_ctx c -> enc (QAll k q) c = (r, c') -> r <> Hang -> cScoper c' = cScoper c.
Proof.
  intros k q c r c' G E N. cbn [enc] in E. unfold wrap in E.
  destruct (is_nil q) eqn:NQ; [unfold fail in E; injection E as <- <-; reflexivity|].
  match type of E with (match ?x with _ => _ end) = _ => destruct x as [r1 c1] eqn:E1 end.
  assert (N1 : r1 <> Hang) by (intros ->; injection E as <- <-; congruence).
  destruct (safe_all (enc q) (cID k) forall_fuel (safe_enc q) c r1 c1 G E1 N1) as [[_ S] _].
  destruct r1; injection E as <- <-; exact S.
Qed.
Print Assumptions C32_quantifier.

(* with an error in the middle of a quantifier *)
Example C32_case :
  let q := QAll (mkQConst "m" []) (QWith "z" (QAnd (QAtom (SubsVC "z" (mkQConst "m" []))) (QAtom (LelVC "z" (mkQConst "m" []) None)))) in
  good_ctx inner_ctx /\ (exists e c', enc q inner_ctx = (Err e, c')) /\ scopes (cScoper inner_ctx) <> [] /\
  slookup (svars (cScoper inner_ctx)) "y" <> None.
Proof.
  cbv zeta. split; [apply inner_good|]. split; [eexists; eexists; vm_compute; reflexivity|]. vm_compute. split; discriminate.
Qed.

(* ---- C33 ---- *)

Theorem C33_numbers_kept : forall q c r c', good_ctx c -> enc q c = (r, c') -> r <> Hang ->
  vm_topv (cVM c) <= vm_topv (cVM c') /\
  (forall t n, vlookup (vm_vars (cVM c)) t = Some n -> vlookup (vm_vars (cVM c')) t = Some n) /\
  (forall t n, vlookup (vm_vars (cVM c')) t = Some n -> vlookup (vm_vars (cVM c)) t = None -> vm_topv (cVM c) < n) /\
  (forall t u n, vlookup (vm_vars (cVM c')) t = Some n -> vlookup (vm_vars (cVM c')) u = Some n -> t = u) /\
  (forall t n, vlookup (vm_vars (cVM c')) t = Some n -> 1 <= n <= vm_topv (cVM c')) /\
  (forall f, r = Ok f -> forall cl l, In cl (sClauses f ++ cClauses f) -> In l cl -> 1 <= Z.abs l <= vm_topv (cVM c')).
Proof.
  intros q c r c' G E N. destruct (safe_enc q c r c' G Logic.I E N) as [V B].
  destruct (ev_vm _ _ V) as (X1 & X2 & X3). destruct (ev_good _ _ V) as [(I1 & I2 & I3) _].
  split; [exact X1|]. split; [exact X2|]. split; [exact X3|]. split; [intros t u n; apply I3|]. split; [intros t n; apply I2|].
  intros f Hf cl l Hc Hl. destruct (B f Hf) as [(_ & W1 & W2) T].
  assert (Y : forall cls, clauses_bound (tv f) cls -> In cl cls -> 1 <= Z.abs l <= tv f).
  { intros cls H Hin. unfold clauses_bound in H. rewrite Forall_forall in H. specialize (H cl Hin). unfold clause_bound in H. rewrite Forall_forall in H.
    specialize (H l Hl). lia. }
  apply in_app_or in Hc as [Hc|Hc]; [pose proof (Y _ W1 Hc)|pose proof (Y _ W2 Hc)]; lia.
Qed.
Print Assumptions C33_numbers_kept.

(* The numbers made by a negation belong to no triple, now or later. *)
Definition reserved (vm vm' : varman) : Prop :=
  forall later, vm_ext vm' later -> forall t n, vlookup (vm_vars later) t = Some n -> ~ vm_topv vm < n <= vm_topv vm'.

Lemma same_vars_reserved : forall vm vm', vm_inv vm -> vm_vars vm' = vm_vars vm -> reserved vm vm'.
Proof.
  intros vm vm' (_ & I & _) E later (_ & X2 & X3) t n H R. destruct (vlookup (vm_vars vm') t) as [n'|] eqn:Ev.
  - pose proof (X2 t n' Ev). assert (n' = n) by congruence. subst. rewrite E in Ev. apply I in Ev. lia.
  - pose proof (X3 t n H Ev). lia.
Qed.

Theorem C33_negation_variables : forall c,  good_ctx c ->
  (forall q g c', enc (QNot q) c = (Ok g, c') -> exists f c1, enc q c = (Ok f, c1) /\ reserved (cVM c1) (cVM c')) /\
  (forall q1 q2 g c', enc (QOr q1 q2) c = (Ok g, c') ->
     exists f1 c1 f2 c2, enc q1 c = (Ok f1, c1) /\ enc q2 c1 = (Ok f2, c2) /\ reserved (cVM c2) (cVM c')).
Proof.
  assert (Ng : forall f c g c', m_Negate f c = (Ok g, c') -> vm_vars (cVM c') = vm_vars (cVM c)).
  { intros f [s vm m] g c' E. rewrite neg_m in E. injection E as <- <-. cbn [cVM]. unfold negF. cbn [snd]. unfold UpdateTopV. destruct (_ <? _); reflexivity. }
  intros c G. split.
  - intros q g c' E. cbn [enc] in E. apply wrap_inv in E. destruct (is_nil q); [discriminate|]. apply bind_inv in E as (f & c1 & E1 & E).
    exists f, c1. split; auto. destruct (safe_enc q c _ c1 G Logic.I E1) as [V _]; [discriminate|].
    apply same_vars_reserved; [apply V|eapply Ng; eauto].
  - intros q1 q2 g c' E. cbn [enc] in E. apply wrap_inv in E. destruct (is_nil q1); [discriminate|]. destruct (is_nil q2); [discriminate|].
    apply bind_inv in E as (f1 & c1 & E1 & E). apply wrap_inv in E1. apply bind_inv in E as (f2 & c2 & E2 & E). apply wrap_inv in E2.
    apply bind_inv in E as (g1 & c3 & E3 & E). apply bind_inv in E as (g2 & c4 & E4 & E).
    exists f1, c1, f2, c2. split; auto. split; auto.
    destruct (safe_enc q1 c _ c1 G Logic.I E1) as [V1 _]; [discriminate|].
    destruct (safe_enc q2 c1 _ c2 (ev_good _ _ V1) Logic.I E2) as [V2 _]; [discriminate|].
    apply same_vars_reserved; [apply V2|]. now rewrite (Ng _ _ _ _ E), (Ng _ _ _ _ E4), (Ng _ _ _ _ E3).
Qed.
Print Assumptions C33_negation_variables.

Example C33_case :
  good_ctx inner_ctx /\
  (exists g c', enc (QOr sample (QNot sample)) inner_ctx = (Ok g, c') /\ vm_topv (cVM inner_ctx) < vm_topv (cVM c')) /\
  vm_vars (cVM inner_ctx) <> [].
Proof.
  split; [apply inner_good|]. split; [|vm_compute; discriminate].
  eexists. eexists. split; [vm_compute; reflexivity|]. vm_compute. reflexivity.
Qed.

(* ---- C36 ---- *)

(* In every context the library can be in, on a decision tree, whatever the
   constants: Encoding returns a CNF or an error.  The preference of HEPR with
   a variable must not be empty (see the refutation below). *)
Theorem C36_no_panic : forall t q c, good_ctx c -> is_dtree (cModel c) t -> q <> QNil ->
  (forall a, In a (atoms_of q) -> has_pref a) ->
  (exists f c', enc q c = (Ok f, c')) \/ (exists e c', enc q c = (Err e, c')).
Proof.
  intros t q c G T NN H.
  pose proof (enc_outcome (cModel c) q NN (fun a Ha => dtree_demands _ t a T (H a Ha)) c G eq_refl) as Q.
  destruct (enc q c) as [r c']. destruct Q as [(f & Q)|(e & Q)]; cbn [fst] in Q; subst; eauto.
Qed.
Print Assumptions C36_no_panic.

(* Components that do not walk the model: any list of nodes, positive dimension. *)
Definition walks_model (a : atom) : bool :=
  match a with NodeV _ _ | NodeC _ | AllC _ _ | DfsV _ | DfsC _ => true | _ => false end.
Theorem C36_any_model : forall q c, good_ctx c -> (0 < Dim (cModel c))%nat -> q <> QNil ->
  (forall a, In a (atoms_of q) -> has_pref a /\ walks_model a = false) ->
  (exists f c', enc q c = (Ok f, c')) \/ (exists e c', enc q c = (Err e, c')).
Proof.
  intros q c G P NN H.
  assert (D : forall a, In a (atoms_of q) -> demands (cModel c) a).
  { intros a Ha. destruct (H a Ha) as [H1 H2]. destruct a; cbn [demands has_pref walks_model] in *; auto; discriminate. }
  pose proof (enc_outcome (cModel c) q NN D c G eq_refl) as Q.
  destruct (enc q c) as [r c']. destruct Q as [(f & Q)|(e & Q)]; cbn [fst] in Q; subst; eauto.
Qed.
Print Assumptions C36_any_model.

(* HEPR with an empty preference reads Preference[-1]. *)
Theorem C36_empty_preference_refuted : exists t q c, good_ctx c /\ is_dtree (cModel c) t /\ fst (enc q c) = Panic.
Proof.
  exists stump_tree, (QWith "x" (QWith "y" (QAtom (HeprVV "x" "y" [] (Some (fun p a b => append p (append a b))))))), (BasicQContext stump).
  split; [apply fresh_good|]. split; [apply stump_is_dtree|]. vm_compute. reflexivity.
Qed.
Print Assumptions C36_empty_preference_refuted.

(* LEH on a model without features reads c.Val[0]. *)
Theorem C36_no_features_refuted : exists q m, Dim m = 0%nat /\ fst (enc q (BasicQContext m)) = Panic.
Proof.
  exists (QWith "x" (QAtom (LehVCC "x" (mkQConst "" []) (mkQConst "" []) (Some append)))), (mkModel 0 []).
  split; [reflexivity|]. vm_compute. reflexivity.
Qed.
Print Assumptions C36_no_features_refuted.

Example C36_case :
  let q := QAnd sample (QAtom (HeprVC "x" (mkQConst "k" [ONE; 7]) [1; 0] (Some (fun p a b => append p (append a b))))) in
  good_ctx used_ctx /\ is_dtree (cModel used_ctx) stump_tree /\ q <> QNil /\ (forall a, In a (atoms_of q) -> has_pref a).
Proof.
  cbv zeta. split; [apply used_good|]. split.
  - assert (E : cModel used_ctx = stump) by (vm_compute; reflexivity). rewrite E. apply stump_is_dtree.
  - split; [discriminate|]. intros a Ha. simpl in Ha. repeat destruct Ha as [<-|Ha]; try exact Logic.I; [discriminate|contradiction].
Qed.

(* ---- C37 ---- *)

(* The quantifier and dfs check every node first. *)
Theorem C37_checked : forall c, good_ctx c ->
  (exists n, In n (Nodes (cModel c)) /\ ~ node_valid (Dim (cModel c)) (length (Nodes (cModel c))) n) ->
  (forall k q, exists e c', enc (QAll k q) c = (Err e, c')) /\
  (forall v, exists e c', enc (QAtom (DfsV v)) c = (Err e, c')) /\
  (forall k, exists e c', enc (QAtom (DfsC k)) c = (Err e, c')).
Proof.
  intros c G (n & Hn & Nn).
  assert (NF : ~ Forall (node_valid (Dim (cModel c)) (length (Nodes (cModel c)))) (Nodes (cModel c))) by (rewrite Forall_forall; auto).
  split; [|split].
  - intros k q. cbn [enc]. destruct (is_nil q); [unfold wrap, fail; eauto|]. unfold wrap, bind at 1, m_AddScope, defer_PopScope, bind, lift.
    destruct (iter_invalid _ _ NF) as (e & E). cbn [set_scoper cModel]. rewrite E. cbn [cScoper].
    destruct (PopScope _) as [[pe|] s]; eauto.
  - intros v. destruct (atom_bad_nodes c (DfsV v) (proj2 G) Logic.I NF) as (e & E). cbn [enc]. unfold enc_atom. rewrite E. eauto.
  - intros k. destruct (atom_bad_nodes c (DfsC k) (proj2 G) Logic.I NF) as (e & E). cbn [enc]. unfold enc_atom. rewrite E. eauto.
Qed.
Print Assumptions C37_checked.

(* No query loops unless it asks IsNode of a constant, whatever the nodes. *)
Theorem C37_no_loop : forall q c, good_ctx c -> (forall k, ~ In (NodeC k) (atoms_of q)) -> fst (enc q c) <> Hang.
Proof. intros q c G H. now apply enc_no_hang. Qed.
Print Assumptions C37_no_loop.

(* The other components, on the lists of nodes that are not checked. *)
Theorem C37_unchecked_components_refuted :
  (* a child out of range: AllComp of a constant panics *)
  (exists nodes, nodes <> [] /\ (exists n, In n nodes /\ ~ node_valid 1 (length nodes) n) /\
     fst (enc (QAtom (AllC (mkQConst "" [BOT]) true)) (BasicQContext (mkModel 1 nodes))) = Panic) /\
  (* a feature out of range: IsNode of a variable panics *)
  (exists nodes, nodes <> [] /\ (exists n, In n nodes /\ ~ node_valid 1 (length nodes) n) /\
     fst (enc (QWith "x" (QAtom (NodeV "x" (Some (tag "reach"))))) (BasicQContext (mkModel 1 nodes))) = Panic) /\
  (* a child or a feature out of range: AllComp of a variable returns a CNF *)
  (exists nodes, nodes <> [] /\ (exists n, In n nodes /\ ~ node_valid 1 (length nodes) n) /\
     exists f, fst (enc (QWith "x" (QAtom (AllV "x" true (Some (tag "reach"))))) (BasicQContext (mkModel 1 nodes))) = Ok f) /\
  (* no nodes: dfs panics *)
  fst (enc (QWith "x" (QAtom (DfsV "x"))) (BasicQContext (mkModel 1 []))) = Panic /\
  fst (enc (QAtom (DfsC (mkQConst "" [BOT]))) (BasicQContext (mkModel 1 []))) = Panic.
Proof.
  split; [|split; [|split; [|split]]].
  - exists [mkNode false 0 1 7; mkNode true 0 (-1) (-1)]. split; [discriminate|]. split.
    + eexists. split; [left; reflexivity|]. unfold node_valid. simpl. intros [H|H]; [discriminate|lia].
    + vm_compute. reflexivity.
  - exists [mkNode false 5 1 2; mkNode true 0 (-1) (-1); mkNode false 0 (-1) (-1)]. split; [discriminate|]. split.
    + eexists. split; [left; reflexivity|]. unfold node_valid. simpl. intros [H|H]; [discriminate|lia].
    + vm_compute. reflexivity.
  - exists [mkNode false 5 1 7; mkNode true 0 (-1) (-1)]. split; [discriminate|]. split.
    + eexists. split; [left; reflexivity|]. unfold node_valid. simpl. intros [H|H]; [discriminate|lia].
    + eexists. vm_compute. reflexivity.
  - vm_compute. reflexivity.
  - vm_compute. reflexivity.
Qed.
Print Assumptions C37_unchecked_components_refuted.

(* IsNode of a constant on nodes that form a cycle: no number of turns is enough. *)
Theorem C37_cycle_refuted : exists nodes val, Forall (node_valid 1 (length nodes)) nodes /\ length val = 1%nat /\
  forall root, hd_error nodes = Some root ->
  forall fuel, isnode_loop fuel 1 nodes val root (newVisitRecord (mkQConst "" val)) = Hang.
Proof.
  exists [mkNode false 0 0 1; mkNode true 0 (-1) (-1)], [ZERO]. split; [|split; [reflexivity|]].
  - constructor; [right; simpl; lia|]. constructor; [left; reflexivity|constructor].
  - destruct (isnode_total 1 [mkNode false 0 0 1; mkNode true 0 (-1) (-1)] (mkQConst "" [ZERO]) eq_refl) as [(r & H)|[(e & H)|[_ H]]].
    + vm_compute in H. discriminate.
    + vm_compute in H. discriminate.
    + exact H.
Qed.
Print Assumptions C37_cycle_refuted.

Example C37_case :
  let m := mkModel 1 [mkNode false 0 1 7; mkNode true 0 (-1) (-1)] in
  good_ctx (BasicQContext m) /\ (exists n, In n (Nodes m) /\ ~ node_valid (Dim m) (length (Nodes m)) n) /\
  fst (enc (QAll (mkQConst "n" []) (QAtom (FullC (mkQConst "n" [])))) (BasicQContext m)) = Err "ForAllGuarded: Node's OChild out of bounds 7".
Proof.
  cbv zeta. split; [apply fresh_good|]. split; [|vm_compute; reflexivity].
  eexists. split; [left; reflexivity|]. unfold node_valid. simpl. intros [H|H]; [discriminate|lia].
Qed.
