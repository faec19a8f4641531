(* Properties C11, C22-C24: what the CNF of a query says. *)
From Verif Require Import GoBase GoLemmas Cnf Query Walk Atoms Logop Spec Meaning Truth CnfSem QueryLemmas Sym AtomBase AtomSimple TreeLemmas WalkLemmas AtomMain Form Master Block Ground Sat AtomCnf Evolve Outcome Errors Names FirstOrder Answer Solver PropContext.
Local Open Scope string_scope.
Local Open Scope Z_scope.
Local Open Scope list_scope.

(* ---- C11 ---- *)

(* In the valuation r, feature i of the variable called w has the value x. *)
Definition has_value (vm : varman) (r : valuation) (w : string) (i x : Z) : Prop :=
  exists n, vlookup (vm_vars vm) (w, i, x) = Some n /\ r n = true.
(* ... exactly one of the three values *)
Definition one_value (vm : varman) (r : valuation) (w : string) (i : Z) : Prop :=
  exists x, valid_feat x /\ has_value vm r w i x /\ forall y, valid_feat y -> has_value vm r w i y -> y = x.
Definition spelled (vm : varman) (r : valuation) (d : nat) (w : string) (e : inst) : Prop :=
  forall i x, in_range d i -> valid_feat x -> (has_value vm r w i x <-> feat e i = x).

Lemma has_value_matches : forall vm r tv w i x, matches vm r tv -> mapped vm (w, i, x) ->
  (has_value vm r w i x <-> tv (w, i, x) = true).
Proof.
  intros vm r tv w i x M H. unfold mapped in H. destruct (vlookup (vm_vars vm) (w, i, x)) as [n|] eqn:E; [|congruence].
  pose proof (M _ _ E) as X. split.
  - intros (n' & E' & R). congruence.
  - intros T. exists n. split; auto. congruence.
Qed.

Lemma exactly_one_value : forall d vm r tv w i, matches vm r tv -> in_range d i -> (forall x, valid_feat x -> mapped vm (w, i, x)) ->
  exactly_one (tv (w, i, BOT)) (tv (w, i, ZERO)) (tv (w, i, ONE)) -> one_value vm r w i.
Proof.
  intros d vm r tv w i M Hi Hm X.
  assert (H : forall x, valid_feat x -> (has_value vm r w i x <-> tv (w, i, x) = true)) by (intros x Hx; apply has_value_matches; auto).
  assert (V : valid_feat BOT /\ valid_feat ZERO /\ valid_feat ONE) by (unfold valid_feat; auto). destruct V as (V1 & V2 & V3).
  unfold exactly_one in X.
  assert (F : exists x, valid_feat x /\ tv (w, i, x) = true /\ forall y, valid_feat y -> tv (w, i, y) = true -> y = x).
  { assert (B : forall x, valid_feat x -> tv (w, i, x) = true -> (forall y, valid_feat y -> y <> x -> tv (w, i, y) = false) ->
       exists x, valid_feat x /\ tv (w, i, x) = true /\ forall y, valid_feat y -> tv (w, i, y) = true -> y = x).
    { intros x Vx Tx U. exists x. split; auto. split; auto. intros y Vy Ty. destruct (Z.eq_dec y x) as [|Ny]; auto. rewrite U in Ty; auto. discriminate. }
    destruct X as [(A1 & A2 & A3)|[(A1 & A2 & A3)|(A1 & A2 & A3)]]; [apply (B BOT)|apply (B ZERO)|apply (B ONE)]; auto;
      intros y Vy Ny; destruct Vy as [Ey|[Ey|Ey]]; rewrite Ey in *; congruence. }
  destruct F as (x & Vx & Tx & U). exists x. split; auto. split; [now apply H|]. intros y Vy Hy. apply U; auto. now apply H.
Qed.

(* Whatever the sub-query and the context, as long as the name is new. *)
Theorem C11_one_value : forall c x q w f c', good_ctx c -> ScopeVar (AddVar (cScoper c) x) x = Ok w ->
  CNFVarExists (cVM c) (w, 0, BOT) = false -> enc (QWith x q) c = (Ok f, c') ->
  forall r, Con r f = true -> forall i, in_range (Dim (cModel c)) i -> one_value (cVM c') r w i.
Proof.
  intros c x q w f c' G SV NX E. cbn [enc] in E. apply wrap_inv in E. destruct (is_nil q); [discriminate|].
  apply bind_inv in E as ([] & c1 & E1 & E). apply bind_inv in E as (fi & c2 & E2 & E). apply bind_inv in E as (fq & c3 & E3 & E).
  injection E as <- <-.
  destruct (safe_AddVar x c _ c1 G Logic.I E1) as [V1 _]; [discriminate|].
  destruct (safe_encodeI x c1 _ c2 (ev_good _ _ V1) Logic.I E2) as [V2 _]; [discriminate|].
  destruct (safe_enc q c2 _ c3 (ev_good _ _ V2) Logic.I E3) as [V3 _]; [discriminate|].
  assert (S1 : c1 = set_scoper c (AddVar (cScoper c) x)) by (unfold m_AddVar in E1; congruence).
  unfold encodeI, bind, m_ScopeVar in E2. subst c1. cbn [cScoper set_scoper cVM cModel] in E2. rewrite SV in E2. cbn [cVM cModel set_scoper] in E2. rewrite NX in E2.
  pose proof (run_emits_spec (withvar_emits (Z.of_nat (Dim (cModel c))) w) (cVM c) (proj1 G)) as (Gr & _ & _ & M).
  destruct (run_emits (cVM c) (withvar_emits (Z.of_nat (Dim (cModel c))) w)) as [g vm] eqn:ER.
  assert (fi = g) as -> by congruence. assert (cVM c2 = vm) as <- by (apply (f_equal (fun p => cVM (snd p))) in E2; symmetry; exact E2). cbn [fst snd] in *.
  intros r C i Hi. rewrite Con_Conjunction, andb_true_iff in C. destruct C as [C _].
  pose proof (ev_vm _ _ V3) as X. set (tv := read (cVM c3) r). assert (M3 : matches (cVM c3) r tv) by apply read_matches.
  destruct (M r tv (matches_ext _ _ _ _ X M3)) as [_ M2]. rewrite M2 in C. rewrite withvar_ok in C.
  apply (exactly_one_value (Dim (cModel c)) _ _ tv); auto. intros y Hy. eapply mapped_ext; [exact X|].
  destruct Gr as (_ & _ & G3 & _). apply G3. apply withvar_triples. exists i, y. auto.
Qed.
Print Assumptions C11_one_value.

(* Every partial instance is spelled by a valuation of the declaration's
   clauses; the rest of the valuation is free. *)
Lemma withF_spells : forall d w vm e r, vm_inv vm -> valid_inst d e -> (forall i x, in_range d i -> valid_feat x -> ~ mapped vm (w, i, x)) ->
  (0 < d)%nat -> exists r', agree (vm_topv vm) r r' /\ Con r' (fst (withF d w vm)) = true /\ spelled (snd (withF d w vm)) r' d w e.
Proof.
  intros d w vm e r I Ve NM Hd. unfold withF. assert (CNFVarExists vm (w, 0, BOT) = false) as ->.
  { apply not_true_iff_false. intros X. apply mapped_exists in X. apply (NM 0 BOT); auto; unfold in_range, valid_feat; auto; lia. }
  pose proof (run_emits_spec (withvar_emits (Z.of_nat d) w) vm I) as ((G1 & G2 & G3 & G4) & _ & _ & M).
  destruct (run_emits vm (withvar_emits (Z.of_nat d) w)) as [f vm'] eqn:ER. cbn [fst snd] in *.
  set (tv := fun u : varRep => match u with (v, i, x) => if String.eqb v w && (0 <=? i) && (i <? Z.of_nat d) && ((x =? BOT) || (x =? ZERO) || (x =? ONE)) then feat e i =? x else read vm r (v, i, x) end).
  assert (Tw : forall i x, in_range d i -> valid_feat x -> tv (w, i, x) = (feat e i =? x)).
  { intros i x [Hi1 Hi2] Hx. unfold tv. rewrite String.eqb_refl. apply Z.leb_le in Hi1. apply Z.ltb_lt in Hi2. rewrite Hi1, Hi2. destruct Hx as [->|[->| ->]]; reflexivity. }
  assert (Mt : matches vm r tv).
  { intros [[v i] x] n E. unfold tv. destruct (String.eqb v w && (0 <=? i) && (i <? Z.of_nat d) && ((x =? BOT) || (x =? ZERO) || (x =? ONE))) eqn:EB.
    - exfalso. rewrite !andb_true_iff, !orb_true_iff, !Z.eqb_eq, Z.leb_le, Z.ltb_lt in EB. destruct EB as [[[EB H1] H2] H3]. apply String.eqb_eq in EB. subst v.
      apply (NM i x); [split; auto|unfold valid_feat; tauto|]. unfold mapped. congruence.
    - apply (read_matches vm r _ _ E). }
  destruct (extend_to_spec vm vm' r tv I G1 G2 Mt) as [X1 X2]. exists (extend_to vm vm' r tv). split; auto. split.
  - destruct (M _ _ X2) as [_ ->]. apply withvar_ok. apply (rep_exactly_one d tv w e). split; [exact Ve|]. intros i Hi x Hx. now rewrite Tw by auto.
  - intros i x Hi Hx. rewrite (has_value_matches vm' _ tv); auto.
    + rewrite Tw by auto. apply Z.eqb_eq.
    + apply G3, withvar_triples. exists i, x. auto.
Qed.

Theorem C11_every_instance : forall c x w e, good_ctx c -> (0 < Dim (cModel c))%nat -> ScopeVar (AddVar (cScoper c) x) x = Ok w ->
  (forall i y, in_range (Dim (cModel c)) i -> valid_feat y -> CNFVarExists (cVM c) (w, i, y) = false) ->
  valid_inst (Dim (cModel c)) e ->
  exists f c', encodeI x (set_scoper c (AddVar (cScoper c) x)) = (Ok f, c') /\
    forall r, exists r', agree (vm_topv (cVM c)) r r' /\ Con r' f = true /\ spelled (cVM c') r' (Dim (cModel c)) w e.
Proof.
  intros c x w e G Hd SV NX Ve. unfold encodeI, bind, m_ScopeVar. cbn [cScoper set_scoper]. rewrite SV. cbn [cVM cModel set_scoper].
  assert (N0 : CNFVarExists (cVM c) (w, 0, BOT) = false) by (apply NX; unfold in_range, valid_feat; auto; lia). rewrite N0.
  assert (Q : forall r, exists r', agree (vm_topv (cVM c)) r r' /\ Con r' (fst (withF (Dim (cModel c)) w (cVM c))) = true /\
     spelled (snd (withF (Dim (cModel c)) w (cVM c))) r' (Dim (cModel c)) w e).
  { intros r. apply withF_spells; auto; [apply G|]. intros i y Hi Hy Mp. apply mapped_exists in Mp. rewrite NX in Mp by auto. discriminate. }
  unfold withF in Q. rewrite N0 in Q.
  destruct (run_emits (cVM c) (withvar_emits (Z.of_nat (Dim (cModel c))) w)) as [f vm]. exists f. eexists. split; [reflexivity|exact Q].
Qed.
Print Assumptions C11_every_instance.

(* Also with the clauses of a well-formed sub-query: its consistency clauses do
   not restrict the declared variables. *)
Theorem C11_query_every_instance : forall m t x q N e, (0 < Dim m)%nat -> (has_all q = true -> is_dtree m t) ->
  wf_query m t (QWith x q) -> tidy N (Dim m) (QWith x q) -> valid_inst (Dim m) e ->
  exists f c', enc (QWith x q) (BasicQContext m) = (Ok f, c') /\
    (exists r, Con r f = true /\ spelled (cVM c') r (Dim m) x e) /\
    (forall r, Con r f = true -> exists e', valid_inst (Dim m) e' /\ spelled (cVM c') r (Dim m) x e').
Proof.
  intros m t x q N e Hd HA W T Ve. destruct (fresh_answer m t (QWith x q) N Hd HA W T) as (f & vm' & E & A).
  assert (Sp : forall r, Con r f = true -> spelled vm' r (Dim m) x (decode (Dim m) (read vm' r) x)).
  { intros r C i y Hi Hy. rewrite (has_value_matches vm' r (read vm' r)).
    - destruct (an_one _ _ _ _ _ _ A r x C) as [_ R]; [simpl; auto|]. rewrite (R i Hi y Hy). apply Z.eqb_eq.
    - apply read_matches.
    - apply (an_mapped _ _ _ _ _ _ A); auto. simpl; auto. }
  exists f. eexists. split; [exact E|]. cbn [cVM]. split.
  - destruct (an_free _ _ _ _ _ _ A (fun _ => e) (fun _ => false)) as (r & _ & C & D); [intros v; exact Ve|].
    exists r. split; auto. rewrite <- (D x) by (simpl; auto). auto.
  - intros r C. exists (decode (Dim m) (read vm' r) x). split; [apply decode_valid|auto].
Qed.
Print Assumptions C11_query_every_instance.

Example C11_case : good_ctx inner_ctx /\ ScopeVar (AddVar (cScoper inner_ctx) "z") "z" = Ok (append "z" (String us (append "n" (String us "1")))) /\
  CNFVarExists (cVM inner_ctx) (append "z" (String us (append "n" (String us "1"))), 0, BOT) = false /\
  exists f c', enc (QWith "z" (QNot (QAtom (FullV "z")))) inner_ctx = (Ok f, c') /\ length (cClauses f) = 11%nat.
Proof. split; [apply inner_good|]. split; [vm_compute; reflexivity|]. split; [vm_compute; reflexivity|]. eexists. eexists. split; [vm_compute; reflexivity|vm_compute; reflexivity]. Qed.

(* ---- C22 ---- *)

(* The specification: the body, once for each element, numbered. *)
Fixpoint each (body : M CNF) (l : list inst) (i : Z) (acc : CNF) : M CNF :=
  match l with
  | [] => ret acc
  | e :: l => mdo _ <- m_SetScope i e ;; mdo f <- body ;; each body l (i + 1) (Conjunction acc f)
  end.

Lemma loop_each : forall body l fuel it k it' i acc c,
  runs it l k it' -> (k < next_fuel (it_nodes it))%nat -> it_step it' = Ok (inr (false, it')) -> (length l < fuel)%nat ->
  forall_loop fuel body it i acc c = each body l i acc c.
Proof.
  intros body l. induction l as [|e l IH]; intros fuel it k it' i acc c R Hk He Hf.
  - destruct fuel as [|fuel]; [lia|]. pose proof (it_next_runs _ _ _ _ _ R Hk He) as N. simpl in N.
    cbn [forall_loop each]. unfold bind at 1, lift. unfold Next. rewrite N. reflexivity.
  - destruct fuel as [|fuel]; [simpl in Hf; lia|].
    destruct (it_next_runs _ _ _ _ _ R Hk He) as (i1 & k1 & N & T & R1 & K1 & Nd).
    cbn [forall_loop each]. unfold bind at 1, lift. unfold Next. rewrite N. cbv beta iota. rewrite T.
    unfold bind at 1. unfold bind at 2. destruct (m_SetScope i e c) as [[u|x| |] c1]; auto.
    unfold bind. destruct (body c1) as [[f|x| |] c2]; auto. apply (IH fuel i1 k1 it'); auto; [rewrite Nd; lia|simpl in Hf; lia].
Qed.

Theorem C22_each_node : forall k q t c, is_dtree (cModel c) t -> q <> QNil ->
  enc (QAll k q) c =
  wrap "ForAllGuarded" (mdo _ <- m_AddScope (cID k) ;;
    defer_PopScope (each (enc q) (node_instances (Dim (cModel c)) t) 0 TrueCNF)) c.
Proof.
  intros k q t c T NN. cbn [enc]. assert (is_nil q = false) as -> by (destruct q; auto; congruence).
  destruct (iter_runs _ _ T) as (it & it' & n & I1 & I2 & I3 & I4 & I5).
  unfold wrap, bind at 1, m_AddScope. unfold bind at 2. unfold defer_PopScope. cbn [cModel set_scoper].
  unfold bind at 1, lift. rewrite I1.
  rewrite (loop_each (enc q) (node_instances (Dim (cModel c)) t) _ it n it' 0 TrueCNF _ I3); [reflexivity|rewrite I2; exact I4|exact I5|now apply insts_len].
Qed.
Print Assumptions C22_each_node.

(* Each node's instance occurs once. *)
Lemma node_insts_count : forall t e, length (node_insts e t) = length (positions t).
Proof. induction t as [|i f z IHz o IHo]; intros e; simpl; auto. rewrite !app_length. now rewrite IHz, IHo. Qed.
Lemma node_insts_below : forall d t used e l, read_once d used t -> length e = d -> (forall i, in_range d i -> ~ In i used -> feat e i = BOT) ->
  NoDup (node_insts e t) /\ (In l (node_insts e t) -> l <> e -> exists f, in_range d f /\ ~ In f used /\ feat l f <> BOT).
Proof.
  induction t as [i v|i f z IHz o IHo]; intros used e l R He Hb; simpl.
  - split; [repeat constructor; auto|]. intros [<-|[]]; congruence.
  - destruct R as (Rf & Ru & Rz & Ro).
    assert (K : forall w t' l, read_once d (f :: used) t' -> In l (node_insts (set_feat e f w) t') -> feat l f = w).
    { intros w t' l' R' Hl. destruct (node_insts_keep _ _ _ _ _ R' (eq_trans (set_feat_length _ _ _) He) Hl) as [_ H].
      rewrite H by (auto; simpl; auto). apply (feat_set_same d); auto. }
    assert (B : forall w i, in_range d i -> ~ In i (f :: used) -> feat (set_feat e f w) i = BOT).
    { intros w j Hj Nj. rewrite (feat_set_other d); auto; [apply Hb; auto; intros X; apply Nj; simpl; auto|]. intros ->. apply Nj. simpl; auto. }
    assert (Fe : feat e f = BOT) by auto.
    destruct (IHz (f :: used) (set_feat e f ZERO) l Rz (eq_trans (set_feat_length _ _ _) He) (B ZERO)) as [Nz _].
    destruct (IHo (f :: used) (set_feat e f ONE) l Ro (eq_trans (set_feat_length _ _ _) He) (B ONE)) as [No _].
    assert (Ap : forall l l' : list inst, NoDup l -> NoDup l' -> (forall x, In x l -> ~ In x l') -> NoDup (l ++ l')).
    { clear. induction l as [|a l IH]; intros l' H1 H2 H3; simpl; auto. inversion H1; subst. constructor.
      - rewrite in_app_iff. intros [X|X]; auto. apply (H3 a); simpl; auto.
      - apply IH; auto. intros x Hx. apply H3. simpl; auto. }
    split.
    + constructor.
      * intros X. apply in_app_or in X as [X|X]; apply K in X; auto; rewrite Fe in X; discriminate.
      * apply Ap; auto. intros x X Y. apply K in X; auto. apply K in Y; auto. rewrite X in Y. discriminate.
    + intros [<-|X]; [congruence|]. intros _. exists f. split; auto. split; auto. apply in_app_or in X as [X|X]; apply K in X; auto; rewrite X; discriminate.
Qed.
Theorem C22_once : forall m t, is_dtree m t ->
  NoDup (node_instances (Dim m) t) /\ length (node_instances (Dim m) t) = length (Nodes m) /\
  Forall (valid_inst (Dim m)) (node_instances (Dim m) t).
Proof.
  intros m t (Hd & Hp & L & ND & Len & R). split; [|split].
  - apply (node_insts_below (Dim m) t [] (all_bot (Dim m)) []); auto; [apply repeat_length|]. intros. now apply all_bot_feat.
  - unfold node_instances. rewrite node_insts_count. exact Len.
  - apply Forall_forall. intros e He. eapply node_insts_valid; [exact R| |exact He]. split; [apply repeat_length|].
    apply Forall_forall. intros x Hx. apply repeat_spec in Hx. unfold valid_feat. auto.
Qed.
Print Assumptions C22_once.

(* What the body sees at each turn, and what becomes of its CNFs. *)
Inductive turn_by_turn (body : M CNF) (outer : list scope) (id : string) : list inst -> Z -> ctx -> list CNF -> ctx -> Prop :=
| tt_end : forall i c, turn_by_turn body outer id [] i c [] c
| tt_turn : forall e l i c c1 f c2 fs c',
    scopes (cScoper c1) = outer ++ [mkScope id e i] -> cVM c1 = cVM c -> cModel c1 = cModel c ->
    svars (cScoper c1) = svars (cScoper c) ->
    body c1 = (Ok f, c2) -> turn_by_turn body outer id l (i + 1) c2 fs c' ->
    turn_by_turn body outer id (e :: l) i c (f :: fs) c'.

Lemma each_turns : forall q outer id l i acc c g c', good_ctx c -> (exists k, scopes (cScoper c) = outer ++ [k] /\ sTarget k = id) ->
  each (enc q) l i acc c = (Ok g, c') ->
  exists fs, turn_by_turn (enc q) outer id l i c fs c' /\ g = fold_left Conjunction fs acc.
Proof.
  intros q outer id. induction l as [|e l IH]; intros i acc c g c' G S E; cbn [each] in E.
  - injection E as <- <-. exists []. split; [constructor|reflexivity].
  - apply bind_inv in E as ([] & c1 & E1 & E). apply bind_inv in E as (f & c2 & E2 & E).
    destruct (turns_set outer id c i e c1 G S E1) as [T1 V1].
    destruct S as (k & S & St). destruct (set_scope_last (cScoper c) outer k i e S) as [S1 S2].
    assert (SC : cScoper c1 = set_scope (cScoper c) i e).
    { unfold m_SetScope in E1. unfold set_scope. destruct (SetScope (cScoper c) i e) as [er s1]. cbn [snd]. destruct er; [discriminate|]. injection E1 as <-. reflexivity. }
    destruct (safe_enc q c1 _ c2 (tn_good _ _ _ _ T1) Logic.I E2) as [V2 _]; [discriminate|].
    destruct (IH (i + 1) (Conjunction acc f) c2 g c' (ev_good _ _ V2)) as (fs & F1 & F2); auto.
    { rewrite (ev_scopes _ _ V2). apply T1. }
    exists (f :: fs). split; [|exact F2]. eapply tt_turn; [| | | |exact E2|exact F1].
    + rewrite SC, S1, St. reflexivity.
    + exact V1.
    + apply (tn_model _ _ _ _ T1).
    + rewrite SC. exact S2.
Qed.

Theorem C22_turns : forall k q t c g c', good_ctx c -> is_dtree (cModel c) t -> enc (QAll k q) c = (Ok g, c') ->
  exists fs c1, turn_by_turn (enc q) (scopes (cScoper c)) (cID k) (node_instances (Dim (cModel c)) t) 0 (set_scoper c (AddScope (cScoper c) (cID k))) fs c1 /\
    g = fold_left Conjunction fs TrueCNF /\ length fs = length (Nodes (cModel c)) /\ cScoper c' = cScoper c /\ cVM c' = cVM c1.
Proof.
  intros k q t c g c' G T E. assert (NN : q <> QNil) by (intros ->; discriminate E).
  pose proof E as E0. rewrite (C22_each_node k q t c T NN) in E. apply wrap_inv in E. unfold bind, m_AddScope in E. unfold defer_PopScope in E.
  destruct (each (enc q) (node_instances (Dim (cModel c)) t) 0 TrueCNF (set_scoper c (AddScope (cScoper c) (cID k)))) as [r c1] eqn:E1.
  assert (r = Ok g /\ cVM c' = cVM c1) as [-> EV].
  { destruct r as [f|x| |]; destruct (PopScope (cScoper c1)) as [[pe|] s]; try discriminate; injection E as -> <-; auto. }
  destruct (each_turns q (scopes (cScoper c)) (cID k) (node_instances (Dim (cModel c)) t) 0 TrueCNF _ g c1 (AddScope_good c (cID k) G)) as (fs & F1 & F2); [exists (mkScope (cID k) [] 0); auto|exact E1|].
  exists fs, c1. split; auto. split; auto. split; [|split; auto].
  - rewrite <- (proj1 (proj2 (C22_once _ _ T))). clear - F1. induction F1; simpl; auto.
  - cbn [enc] in E0. apply wrap_inv in E0. destruct (is_nil q); [discriminate|].
    destruct (safe_all (enc q) (cID k) forall_fuel (safe_enc q) c (Ok g) c' G E0) as [[_ X] _]; [discriminate|exact X].
Qed.
Print Assumptions C22_turns.

(* In the turn for e, the constant is e. *)
Theorem C22_bound : forall id s e i outer own, scopes s = outer ++ [mkScope id e i] -> ~ In id (map sTarget outer) ->
  fst (ScopeConst s (mkQConst id own)) = mkQConst id e.
Proof.
  intros id s e i outer own E H. unfold ScopeConst. rewrite E, find_scope_app, find_scope_none by auto. cbn [find_scope cID sTarget].
  rewrite String.eqb_refl. reflexivity.
Qed.
Print Assumptions C22_bound.

(* A tree whose nodes are listed in another order than the visit's. *)
Definition shuffled : model := mkModel 3
  [mkNode false 1 4 2; mkNode true 0 (-1) (-1); mkNode false 0 3 1; mkNode false 0 (-1) (-1); mkNode true 0 (-1) (-1)].
Definition shuffled_tree : tree := Split 0 1 (Leaf 4 true) (Split 2 0 (Leaf 3 false) (Leaf 1 true)).
Ltac dt := repeat (apply conj || (eexists; apply conj; [reflexivity|]) || lia || reflexivity || (progress simpl; intuition discriminate) || (progress unfold in_range; simpl; lia)).
Lemma shuffled_is_dtree : is_dtree shuffled shuffled_tree.
Proof.
  split; [simpl; lia|]. split; [reflexivity|]. split; [|split; [|split; [reflexivity|]]].
  - simpl. dt.
  - repeat constructor; simpl; intuition discriminate.
  - simpl. unfold in_range. cbn. intuition; try lia; discriminate.
Qed.
Example C22_case : is_dtree (cModel (BasicQContext shuffled)) shuffled_tree /\
  node_instances 3 shuffled_tree = [[BOT; BOT; BOT]; [BOT; ZERO; BOT]; [BOT; ONE; BOT]; [ZERO; ONE; BOT]; [ONE; ONE; BOT]] /\
  exists g c', enc (QAll (mkQConst "n" []) (QWith "y" (QAtom (SubsCV (mkQConst "n" []) "y")))) (BasicQContext shuffled) = (Ok g, c') /\ length (sClauses g) = 6%nat.
Proof. split; [apply shuffled_is_dtree|]. split; [reflexivity|]. eexists. eexists. split; [vm_compute; reflexivity|vm_compute; reflexivity]. Qed.

(* ---- C23 ---- *)

Theorem C23_sat : forall m t q N, (0 < Dim m)%nat -> (has_all q = true -> is_dtree m t) -> wf_query m t q -> tidy N (Dim m) q ->
  exists f c', enc q (BasicQContext m) = (Ok f, c') /\ ((exists r, Models r f = true) <-> true_query (Dim m) t q).
Proof.
  intros m t q N Hd HA W T. destruct (fresh_answer m t q N Hd HA W T) as (f & vm' & E & A). exists f. eexists. split; [exact E|]. eapply answer_sat; eauto.
Qed.
Print Assumptions C23_sat.

(* In any context left by earlier uses in which the names are unrelated. *)
Theorem C23_any_context : forall m t q vm, (0 < Dim m)%nat -> (has_all q = true -> is_dtree m t) ->
  wf_query m t q -> clean t (ground m t q) -> vm_inv vm -> unrelated vm (ground m t q) ->
  exists f vm', enc q (mkCtx S0 vm m) = (Ok f, mkCtx S0 vm' m) /\ ((exists r, Models r f = true) <-> true_query (Dim m) t q).
Proof.
  intros m t q vm Hd HA W C I U. destruct (query_answer m t q vm Hd HA W C I U) as (f & vm' & E & A). exists f, vm'. split; [exact E|]. eapply answer_sat; eauto.
Qed.
Print Assumptions C23_any_context.

(* ---- C24 ---- *)

Theorem C24_first_order : forall m t q N E, (0 < Dim m)%nat -> (has_all q = true -> is_dtree m t) -> fo_query m t q -> tidy N (Dim m) q ->
  valid_env (Dim m) E ->
  exists f c', enc q (BasicQContext m) = (Ok f, c') /\ ((exists r, Models r f = true) <-> trueFO (Dim m) t E [] q).
Proof.
  intros m t q N E Hd HA F T V. destruct (C23_sat m t q N Hd HA (fo_wf _ _ _ F) T) as (f & c' & X & S).
  exists f, c'. split; auto. rewrite S. symmetry. apply fo_true; auto; apply F.
Qed.
Print Assumptions C24_first_order.

(* ---- concrete queries for C23 and C24 ---- *)

Ltac wf_names := repeat constructor; simpl; intuition discriminate.
Ltac ok_const := match goal with
  | H : is_node _ _ ?e |- valid_inst _ ?e => unfold is_node in H; simpl in H; intuition subst; split; [reflexivity|repeat (apply Forall_cons; [unfold valid_feat; auto|]); apply Forall_nil]
  | |- valid_inst _ _ => split; [reflexivity|repeat (apply Forall_cons; [unfold valid_feat; auto|]); apply Forall_nil]
  end.
Ltac ok_atom := split; [split; [repeat (apply Forall_cons; [cbn; ok_const|]); apply Forall_nil|];
   split; [cbn; repeat split; discriminate|]; split; [exact Logic.I|exact Logic.I]|cbn; try exact Logic.I; try lia; try exact stump_is_dtree].

Lemma sample_wf : wf_query stump stump_tree sample.
Proof.
  constructor.
  - cbn. split; [intros a [<-|[]]; simpl; auto|]. split; [tauto|]. split; [intros v [<-|[]] [X|[]]; discriminate|]. split; intros a; cbn; tauto.
  - cbn. tauto.
  - cbn. tauto.
  - cbn [sample components_ok]. split; [ok_atom|]. intros e He. split; ok_atom.
  - split; cbn; repeat constructor.
Qed.
Lemma sample_tidy : tidy comp_naming 2 sample.
Proof.
  apply rs_tidy; auto.
  - cbn. repeat (apply Forall_cons; [cbn; reflexivity || exact Logic.I|]). apply Forall_nil.
  - cbn. tauto.
  - repeat (apply Forall_cons; [split; [reflexivity|simpl; intuition discriminate]|]). apply Forall_nil.
  - repeat constructor.
Qed.
(* The encoding decides it: true. *)
Example C23_case_true : true_query 2 stump_tree sample.
Proof.
  destruct (C23_sat stump stump_tree sample comp_naming) as (f & c' & E & S);
    [simpl; lia|intros _; exact stump_is_dtree|exact sample_wf|exact sample_tidy|].
  apply S. apply (f_equal fst) in E. cbn [fst] in E.
  assert (L : legalb (sClauses f ++ cClauses f) = true /\ sat_cnf f = true).
  { assert (X : match fst (enc sample (BasicQContext stump)) with Ok f => legalb (sClauses f ++ cClauses f) && sat_cnf f | _ => false end = true) by (vm_compute; reflexivity).
    rewrite E in X. now apply andb_true_iff in X. }
  destruct L as [L1 L2]. apply (sat_cnf_spec f L1) in L2 as (r & C & Sm). exists r. unfold Models. now rewrite C, Sm.
Qed.

(* Below every node there is an instance all of whose completions are positive. *)
Definition sample2 : query :=
  QAll (mkQConst "n" []) (QWith "y" (QAnd (QAtom (SubsCV (mkQConst "n" []) "y")) (QAtom (AllV "y" true (Some VarGenNodeReach))))).
Lemma sample2_fo : fo_query stump stump_tree sample2.
Proof.
  constructor.
  - cbn. split; [tauto|]. split; intros a; cbn; tauto.
  - repeat constructor. simpl; tauto.
  - cbn. tauto.
  - cbn [sample2 components_ok]. intros e He. split; ok_atom.
  - split; cbn; repeat constructor.
Qed.
Lemma sample2_tidy : tidy comp_naming 2 sample2.
Proof.
  apply rs_tidy; auto.
  - cbn. repeat (apply Forall_cons; [cbn; reflexivity || exact Logic.I|]). apply Forall_nil.
  - cbn. tauto.
  - repeat (apply Forall_cons; [split; [reflexivity|simpl; intuition discriminate]|]). apply Forall_nil.
  - repeat constructor.
Qed.
Example C24_case_false : ~ trueFO 2 stump_tree (fun _ => [BOT; BOT]) [] sample2.
Proof.
  destruct (C24_first_order stump stump_tree sample2 comp_naming (fun _ => [BOT; BOT])) as (f & c' & E & S);
    [simpl; lia|intros _; exact stump_is_dtree|exact sample2_fo|exact sample2_tidy|intros v; ok_const|].
  change (Dim stump) with 2%nat in S. rewrite <- S. apply (f_equal fst) in E. cbn [fst] in E.
  assert (L : legalb (sClauses f ++ cClauses f) = true /\ sat_cnf f = false).
  { assert (X : match fst (enc sample2 (BasicQContext stump)) with Ok f => legalb (sClauses f ++ cClauses f) && negb (sat_cnf f) | _ => false end = true) by (vm_compute; reflexivity).
    rewrite E in X. apply andb_true_iff in X as [X1 X2]. split; auto. now apply negb_true_iff. }
  destruct L as [L1 L2]. intros (r & M). apply not_true_iff_false in L2. apply L2. apply (sat_cnf_spec f L1). exists r.
  unfold Models in M. apply andb_true_iff in M. tauto.
Qed.
