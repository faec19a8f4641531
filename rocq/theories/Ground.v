(* Writing a query out: names and constants of the formula, and its meaning. *)
From Verif Require Import GoBase GoLemmas Cnf Query Walk Atoms Logop Spec Meaning Truth CnfSem QueryLemmas Sym AtomBase WalkLemmas AtomMain Form Master Block.
Local Open Scope Z_scope.
Local Open Scope list_scope.

(* The scoped name of a variable declared at a path. *)
Definition pname (v : string) (p : path) : string := sjoin us (v :: path_fields p).

Lemma scoped_pname : forall v l, scoped_name v l = pname v (map sc_key l).
Proof. intros. apply scoped_name_join. Qed.

Lemma holds_map : forall d t E fv fc a, holds d t E (map_atom fv fc a) <-> holds d t (fun v => E (fv v)) (map_atom (fun v => v) fc a).
Proof. intros. destruct a; reflexivity. Qed.
Lemma map_atom_ext : forall fv fc fc' a, (forall c, fc c = fc' c) -> map_atom fv fc a = map_atom fv fc' a.
Proof. intros. destruct a; cbn [map_atom]; rewrite ?H; reflexivity. Qed.
Lemma atom_ok_map : forall d fv fc a, atom_ok d (map_atom fv fc a) <-> atom_ok d (map_atom (fun v => v) fc a).
Proof. intros. destruct a; reflexivity. Qed.
Lemma model_ok_map : forall m t fv fc a, model_ok m t (map_atom fv fc a) <-> model_ok m t a.
Proof. intros. destruct a; reflexivity. Qed.
Lemma vars_map : forall fv fc a, vars_of (map_atom fv fc a) = map fv (vars_of a).
Proof. intros. destruct a; reflexivity. Qed.

Lemma find_scope_app : forall l l' id, find_scope (l ++ l') id = match find_scope l id with Some g => Some g | None => find_scope l' id end.
Proof. induction l as [|g l IH]; intros l' id; simpl; auto. destruct (String.eqb (sTarget g) id); auto. Qed.
Lemma find_scope_none : forall l id, (forall g, In g l -> sTarget g <> id) -> find_scope l id = None.
Proof.
  induction l as [|g l IH]; intros id H; simpl; auto. destruct (String.eqb_spec (sTarget g) id) as [E|].
  - exfalso. apply (H g); simpl; auto.
  - apply IH. intros; apply H; simpl; auto.
Qed.

Lemma slookup_filter : forall f l v k, slookup l v = Some k -> f (v, k) = true -> slookup (filter f l) v = Some k.
Proof.
  induction l as [|[w n] l IH]; intros v k H Hf; simpl in *; [discriminate|].
  destruct (String.eqb_spec w v) as [->|N].
  - injection H as ->. rewrite Hf. simpl. now rewrite String.eqb_refl.
  - destruct (f (w, n)); simpl; auto. destruct (String.eqb_spec w v); [congruence|auto].
Qed.
Lemma slookup_filter_none : forall f l v, slookup l v = None -> slookup (filter f l) v = None.
Proof.
  induction l as [|[w n] l IH]; intros v H; simpl in *; auto.
  destruct (String.eqb_spec w v) as [->|N]; [discriminate|].
  destruct (f (w, n)); simpl; auto. destruct (String.eqb_spec w v); [congruence|auto].
Qed.

Lemma set_scope_last : forall s l g i e, scopes s = l ++ [g] ->
  scopes (set_scope s i e) = l ++ [mkScope (sTarget g) e i] /\ svars (set_scope s i e) = svars s.
Proof.
  intros s l g i e H. unfold set_scope, SetScope. destruct (scopes s) as [|x y] eqn:E; [destruct l; discriminate|].
  cbn [snd scopes svars]. rewrite H, removelast_last, last_last. auto.
Qed.
Lemma pop_last : forall s l g, scopes s = l ++ [g] ->
  scopes (snd (PopScope s)) = l /\ svars (snd (PopScope s)) = filter (fun kv => negb (snd kv =? S (length l))%nat) (svars s).
Proof.
  intros s l g H. unfold PopScope. destruct (scopes s) as [|x y] eqn:E; [destruct l; discriminate|].
  cbn [snd scopes svars]. rewrite H, removelast_last, app_length. simpl. rewrite Nat.add_1_r. auto.
Qed.

(* The scoper while the blocks B around are placed by nm at path p. *)
Record inv (s : scoper) (p : path) (nm : string -> path) (K : bindings) (B G ids : list string) : Prop := {
  i_sc : sc_inv s;
  i_path : map sc_key (scopes s) = p;
  i_const : forall id, option_map sValue (find_scope (scopes s) id) = bound_value K id;
  i_ids : forall g, In g (scopes s) -> In (sTarget g) ids;
  i_vars : forall v k, In (v, k) (svars s) -> In v B /\ nm v = firstn k p;
  i_scope : forall v, In v G -> In v B /\ nm v = firstn (lvl_of s v) p;
  i_len : forall v, (length (nm v) <= length p)%nat
}.

Lemma inv_sconst : forall s p nm K B G ids c, inv s p nm K B G ids -> sconst s c = bind_const K c.
Proof.
  intros s p nm K B G ids c I. unfold sconst, ScopeConst, bind_const. rewrite <- (i_const _ _ _ _ _ _ _ I).
  destruct (find_scope (scopes s) (cID c)); reflexivity.
Qed.
Lemma inv_sname : forall s p nm K B G ids v, inv s p nm K B G ids -> In v G -> sname s v = pname v (nm v).
Proof.
  intros s p nm K B G ids v I Hv. unfold sname. rewrite scoped_pname, <- firstn_map, (i_path _ _ _ _ _ _ _ I).
  destruct (i_scope _ _ _ _ _ _ _ I v Hv) as [_ E]. now rewrite <- E.
Qed.

Lemma inv_AddVar : forall s p nm K B G ids v, inv s p nm K B G ids -> In v B -> nm v = p ->
  inv (AddVar s v) p nm K B (v :: G) ids.
Proof.
  intros s p nm K B G ids v [I1 I2 I3 I4 I5 I6 I7] HB Hp.
  assert (Lp : length p = length (scopes s)) by (rewrite <- I2; apply map_length).
  assert (A : lvl_of (AddVar s v) v = lvl_of s v /\ slookup (svars s) v <> None /\ AddVar s v = s \/
              AddVar s v = s /\ p = [] \/
              (slookup (svars s) v = None /\ AddVar s v = mkScoper (scopes s) ((v, length (scopes s)) :: svars s))).
  { unfold AddVar. destruct (Nat.eqb_spec (length (scopes s)) 0) as [E|E].
    - right. left. split; auto. destruct p; auto. simpl in Lp. lia.
    - destruct (slookup (svars s) v) eqn:Es; [|tauto]. left. split; auto. split; auto. discriminate. }
  constructor.
  - now apply sc_inv_AddVar.
  - now rewrite AddVar_scopes.
  - now rewrite AddVar_scopes.
  - now rewrite AddVar_scopes.
  - intros w k H. destruct A as [(_ & _ & E)|[(E & _)|(_ & E)]]; rewrite E in H; auto.
    simpl in H. destruct H as [[= <- <-]|H]; auto. split; auto. rewrite <- Lp, firstn_all. auto.
  - intros w [<-|H].
    + split; auto. destruct A as [(E & E2 & _)|[(E & E2)|(E2 & E)]].
      * rewrite E. destruct (slookup (svars s) v) as [k|] eqn:Es; [|congruence].
        apply slookup_In in Es as Hin. destruct (I5 _ _ Hin) as [_ X]. unfold lvl_of. now rewrite Es.
      * rewrite Hp, E2. now rewrite firstn_nil.
      * rewrite E. unfold lvl_of. simpl. rewrite String.eqb_refl, <- Lp, firstn_all. auto.
    + destruct (I6 w H) as [X Y]. split; auto. destruct A as [(_ & _ & E)|[(E & _)|(E2 & E)]]; rewrite E; auto.
      unfold lvl_of. simpl. destruct (String.eqb_spec v w) as [->|]; auto. rewrite <- Lp, firstn_all. auto.
  - exact I7.
Qed.

Lemma inv_drop : forall s p nm K B v G ids, inv s p nm K B (v :: G) ids -> inv s p nm K B G ids.
Proof. intros s p nm K B v G ids []. constructor; auto. intros w H. apply i_scope0. simpl; auto. Qed.

Section B1.
Variable m : model.
Variable t : tree.
Let insts := node_instances (Dim m) t.

Definition place_in (p : path) (q : query) (w : string) : Prop :=
  exists v p', w = pname v p' /\ ((In v (block_vars q) /\ p' = p) \/ owned p q v p').

Definition grounds (s : scoper) (p : path) nm K B G ids (q : query) : Prop :=
  let r := elab insts q s in
  inv (snd r) p nm K B G ids /\ scopes (snd r) = scopes s /\
  (forall E, evalF (Dim m) t E (fst r) <-> evalN (Dim m) t (fun v p => E (pname v p)) p nm K q) /\
  (components_ok m t K q -> atoms_good m t (fst r)) /\
  lexical (map (fun v => pname v (nm v)) G) (fst r) /\
  (forall w, In w (declared (fst r)) -> place_in p q w).

(* between two turns of a ForAllGuarded with this ID and body *)
Record turn (base : list scope) (id : string) (q : query) (s : scoper) (p : path) (nm : string -> path) (B G : list string) : Prop := {
  t_sc : sc_inv s;
  t_scopes : exists g, scopes s = base ++ [g] /\ sTarget g = id;
  t_vars : forall v k, In (v, k) (svars s) ->
     ((k <= length p)%nat /\ In v B /\ nm v = firstn k p) \/ (k = S (length p) /\ In v (block_vars q));
  t_scope : forall v, In v G -> In v B /\ nm v = firstn (lvl_of s v) p /\ (lvl_of s v <= length p)%nat
}.

Lemma firstn_snoc_le : forall (p : path) x k, (k <= length p)%nat -> firstn k (p ++ [x]) = firstn k p.
Proof. intros p x k H. rewrite firstn_app. replace (k - length p)%nat with 0%nat by lia. simpl. apply app_nil_r. Qed.
Lemma firstn_snoc_gt : forall (p : path) x k, (length p < k)%nat -> firstn k (p ++ [x]) = p ++ [x].
Proof. intros p x k H. apply firstn_all2. rewrite app_length. simpl. lia. Qed.

Lemma turn_inv : forall base id q s p nm K B G ids i e,
  turn base id q s p nm B G -> map sc_key base = p ->
  (forall j, option_map sValue (find_scope base j) = bound_value K j) ->
  (forall g, In g base -> In (sTarget g) ids) -> ~ In id ids -> (forall v, (length (nm v) <= length p)%nat) ->
  (forall v, In v (block_vars q) -> ~ In v B) ->
  let p' := p ++ [(id, i)] in
  inv (set_scope s i e) p' (place nm (block_vars q) p') ((id, e) :: K) (block_vars q ++ B) G (id :: ids).
Proof.
  intros base id q s p nm K B G ids i e [T1 (g & T2 & T3) T4 T5] Hp HK Hids Hni Hlen Hdis. cbv zeta.
  destruct (set_scope_last s base g i e T2) as [S1 S2]. rewrite T3 in S1.
  assert (NB : forall v, In v B -> place nm (block_vars q) (p ++ [(id, i)]) v = nm v).
  { intros v Hv. unfold place. destruct (inb_str v (block_vars q)) eqn:E; auto. apply inb_str_spec in E. exfalso. eapply Hdis; eauto. }
  constructor.
  - now apply sc_inv_SetScope.
  - rewrite S1, map_app, Hp. reflexivity.
  - intros j. rewrite S1, find_scope_app. simpl. destruct (String.eqb_spec id j) as [->|N].
    + rewrite find_scope_none; [reflexivity|]. intros g' Hg E. apply Hni. rewrite <- E. auto.
    + rewrite <- HK. destruct (find_scope base j); reflexivity.
  - intros g' Hg. rewrite S1 in Hg. apply in_app_or in Hg as [Hg|[<-|[]]]; simpl; auto.
  - intros v k Hv. rewrite S2 in Hv. apply T4 in Hv as [(L & Hb & E)|(-> & Hb)].
    + split; [apply in_or_app; auto|]. rewrite NB by auto. rewrite firstn_snoc_le; auto.
    + split; [apply in_or_app; auto|]. rewrite firstn_snoc_gt by lia. unfold place. apply inb_str_spec in Hb. now rewrite Hb.
  - intros v Hv. apply T5 in Hv as (Hb & E & L). split; [apply in_or_app; auto|]. rewrite NB by auto.
    unfold lvl_of in *. rewrite S2. rewrite firstn_snoc_le; auto.
  - intros v. unfold place. rewrite app_length. simpl. destruct (inb_str v (block_vars q)); [rewrite app_length; simpl; lia|].
    specialize (Hlen v). lia.
Qed.

Lemma inv_turn : forall base id q s p nm K B G ids i e,
  let p' := p ++ [(id, i)] in
  inv s p' (place nm (block_vars q) p') ((id, e) :: K) (block_vars q ++ B) G (id :: ids) ->
  scopes s = base ++ [mkScope id e i] -> map sc_key base = p -> (forall v, (length (nm v) <= length p)%nat) ->
  (forall v, In v (block_vars q) -> ~ In v B) -> (forall v, In v G -> In v B) ->
  turn base id q s p nm B G.
Proof.
  intros base id q s p nm K B G ids i e p' [I1 I2 I3 I4 I5 I6 I7] HS Hp Hlen Hdis HGB. unfold p' in *.
  assert (NB : forall v, In v B -> place nm (block_vars q) (p ++ [(id, i)]) v = nm v).
  { intros v Hv. unfold place. destruct (inb_str v (block_vars q)) eqn:E; auto. apply inb_str_spec in E. exfalso. eapply Hdis; eauto. }
  assert (KL : forall v k, In v B -> nm v = firstn k (p ++ [(id, i)]) -> (k <= length p)%nat /\ nm v = firstn k p).
  { intros v k Hv E. destruct (le_lt_dec k (length p)) as [L|L].
    - split; auto. now rewrite firstn_snoc_le in E.
    - rewrite firstn_snoc_gt in E by auto. specialize (Hlen v). rewrite E, app_length in Hlen. simpl in Hlen. lia. }
  constructor; auto.
  - exists (mkScope id e i). auto.
  - intros v k Hv. destruct (I5 v k Hv) as [Hb E]. apply in_app_or in Hb as [Hb|Hb].
    + right. split; auto. unfold place in E. apply inb_str_spec in Hb as Hb'. rewrite Hb' in E.
      assert (Hk : (k <= length (scopes s))%nat) by (unfold sc_inv in I1; rewrite Forall_forall in I1; apply (I1 _ Hv)).
      rewrite HS, app_length in Hk. simpl in Hk. assert (length base = length p) by (rewrite <- Hp; symmetry; apply map_length).
      apply (f_equal (@length _)) in E. rewrite firstn_length, !app_length in E. simpl in E. lia.
    + left. rewrite NB in E by auto. destruct (KL v k Hb E). auto.
  - intros v Hv. destruct (I6 v Hv) as [_ E]. specialize (HGB v Hv). rewrite NB in E by auto. destruct (KL v _ HGB E). auto.
Qed.

Lemma grounds_all : forall id q base p nm K B G ids,
  (forall s p nm K B G ids, inv s p nm K B G ids -> scoped B G ids q -> (forall v, In v (block_vars q) -> In v B /\ nm v = p) ->
     grounds s p nm K B G ids q) ->
  map sc_key base = p ->
  (forall j, option_map sValue (find_scope base j) = bound_value K j) ->
  (forall g, In g base -> In (sTarget g) ids) -> ~ In id ids -> (forall v, (length (nm v) <= length p)%nat) ->
  (forall v, In v (block_vars q) -> ~ In v B) -> (forall v, In v G -> In v B) ->
  scoped (block_vars q ++ B) G (id :: ids) q ->
  forall l (n : nat) acc s, turn base id q s p nm B G ->
  let r := elab_all (elab insts q) l (Z.of_nat n) acc s in
  let at_ j := p ++ [(id, Z.of_nat (n + j))] in
  turn base id q (snd r) p nm B G /\
  (forall E, evalF (Dim m) t E (fst r) <->
     evalF (Dim m) t E acc /\ forall j e, nth_error l j = Some e ->
       evalN (Dim m) t (fun v p => E (pname v p)) (at_ j) (place nm (block_vars q) (at_ j)) ((id, e) :: K) q) /\
  ((forall e, In e l -> components_ok m t ((id, e) :: K) q) -> atoms_good m t acc -> atoms_good m t (fst r)) /\
  (lexical (map (fun v => pname v (nm v)) G) acc -> lexical (map (fun v => pname v (nm v)) G) (fst r)) /\
  (forall w, In w (declared (fst r)) -> In w (declared acc) \/ exists j, place_in (at_ j) q w).
Proof.
  intros id q base p nm K B G ids IH Hp HK Hids Hni Hlen Hdis HGB HS l.
  induction l as [|e l IHl]; intros n acc s T; cbv zeta; cbn [elab_all].
  - cbn [fst snd]. split; [exact T|]. split; [|split; [auto|split; auto]].
    intros E. split; [|tauto]. intros H; split; auto. intros j e. destruct j; discriminate.
  - pose proof (turn_inv base id q s p nm K B G ids (Z.of_nat n) e T Hp HK Hids Hni Hlen Hdis) as I. cbv zeta in I.
    assert (HB : forall v, In v (block_vars q) -> In v (block_vars q ++ B) /\ place nm (block_vars q) (p ++ [(id, Z.of_nat n)]) v = p ++ [(id, Z.of_nat n)]).
    { intros v Hv. split; [apply in_or_app; auto|]. unfold place. apply inb_str_spec in Hv. now rewrite Hv. }
    pose proof (IH _ _ _ _ _ _ _ I HS HB) as (J1 & J2 & J3 & J4 & J5 & J6).
    destruct (elab insts q (set_scope s (Z.of_nat n) e)) as [f s'] eqn:EL. cbn [fst snd] in *.
    pose proof T as [_ (g & T2 & T3) _ _]. destruct (set_scope_last s base g (Z.of_nat n) e T2) as [S1 _]. rewrite T3 in S1. rewrite S1 in J2.
    pose proof (inv_turn base id q s' p nm K B G ids (Z.of_nat n) e J1 J2 Hp Hlen Hdis HGB) as T'.
    replace (Z.of_nat n + 1) with (Z.of_nat (S n)) by lia.
    destruct (IHl (S n) (FAnd acc f) s' T') as (L1 & L2 & L3 & L4 & L5). cbv zeta in *.
    assert (GE : map (fun v => pname v (place nm (block_vars q) (p ++ [(id, Z.of_nat n)]) v)) G = map (fun v => pname v (nm v)) G).
    { apply map_ext_in. intros v Hv. f_equal. unfold place. destruct (inb_str v (block_vars q)) eqn:E; auto.
      apply inb_str_spec in E. exfalso. eapply Hdis; eauto. }
    rewrite GE in J5.
    split; [exact L1|]. split; [|split; [|split]].
    + intros E. rewrite L2. cbn [evalF]. rewrite J3. split.
      * intros ([H1 H2] & H3). split; auto. intros [|j] e' Hj; simpl in Hj.
        -- injection Hj as <-. rewrite Nat.add_0_r. exact H2.
        -- rewrite <- Nat.add_succ_comm. apply H3. exact Hj.
      * intros [H1 H2]. split; [split; auto|].
        -- specialize (H2 0%nat e eq_refl). rewrite Nat.add_0_r in H2. exact H2.
        -- intros j e' Hj. rewrite Nat.add_succ_comm. apply H2. exact Hj.
    + intros HC HA. apply L3; [intros; apply HC; simpl; auto|]. split; auto. apply J4, HC. simpl; auto.
    + intros HA. apply L4. split; auto.
    + intros w Hw. apply L5 in Hw as [Hw|(j & Hw)].
      * cbn [declared] in Hw. apply in_app_or in Hw as [Hw|Hw]; auto. right. exists 0%nat. rewrite Nat.add_0_r. auto.
      * right. exists (S j). rewrite <- Nat.add_succ_comm. exact Hw.
Qed.

Theorem ground_ok : forall q s p nm K B G ids,
  inv s p nm K B G ids -> scoped B G ids q -> (forall v, In v (block_vars q) -> In v B /\ nm v = p) ->
  grounds s p nm K B G ids q.
Proof.
  induction q as [|a|q IH|q1 IH1 q2 IH2|q1 IH1 q2 IH2|v q IH|c q IH]; intros s p nm K B G ids I S HB;
    cbn [scoped block_vars] in *; unfold grounds; cbv zeta; cbn [elab].
  - contradiction.
  - cbn [fst snd evalF evalN atoms_good lexical declared components_ok].
    assert (EC : forall fv, map_atom fv (sconst s) a = map_atom fv (bind_const K) a).
    { intros fv. apply map_atom_ext. intros c. eapply inv_sconst; eauto. }
    split; [exact I|]. split; auto. unfold resolve. rewrite EC. split; [|split; [|split]].
    + intros E. rewrite holds_map. unfold bind_atom. apply holds_ext. intros v Hv. rewrite vars_map, map_id in Hv.
      rewrite (inv_sname _ _ _ _ _ _ _ v I); auto.
    + intros [A1 A2]. split; [now apply atom_ok_map|now apply model_ok_map].
    + intros w Hw. rewrite vars_map in Hw. apply in_map_iff in Hw as (v & <- & Hv).
      rewrite (inv_sname _ _ _ _ _ _ _ v I) by auto. apply in_map_iff. exists v. auto.
    + intros w [].
  - destruct (IH s p nm K B G ids I S HB) as (J1 & J2 & J3 & J4 & J5 & J6).
    destruct (elab insts q s) as [f s']. cbn [fst snd evalF evalN atoms_good lexical declared components_ok] in *.
    split; [exact J1|]. split; auto. split; [intros E; rewrite J3; reflexivity|]. split; auto.
  - destruct S as [S1 S2].
    destruct (IH1 s p nm K B G ids I S1) as (J1 & J2 & J3 & J4 & J5 & J6).
    { intros v Hv; apply HB, in_or_app; auto. }
    destruct (elab insts q1 s) as [f1 s1]. cbn [fst snd] in *.
    destruct (IH2 s1 p nm K B G ids J1 S2) as (L1 & L2 & L3 & L4 & L5 & L6).
    { intros v Hv; apply HB, in_or_app; auto. }
    destruct (elab insts q2 s1) as [f2 s2]. cbn [fst snd evalF evalN atoms_good lexical declared components_ok] in *.
    split; [exact L1|]. split; [congruence|]. split; [intros E; rewrite J3, L3; reflexivity|]. split; [tauto|]. split; auto.
    intros w Hw. apply in_app_or in Hw as [Hw|Hw]; [apply J6 in Hw|apply L6 in Hw]; destruct Hw as (v & p' & -> & [[Hv ->]|Hv]); exists v; eexists;
      (split; [reflexivity|]); simpl; rewrite in_app_iff; tauto.
  - destruct S as [S1 S2].
    destruct (IH1 s p nm K B G ids I S1) as (J1 & J2 & J3 & J4 & J5 & J6).
    { intros v Hv; apply HB, in_or_app; auto. }
    destruct (elab insts q1 s) as [f1 s1]. cbn [fst snd] in *.
    destruct (IH2 s1 p nm K B G ids J1 S2) as (L1 & L2 & L3 & L4 & L5 & L6).
    { intros v Hv; apply HB, in_or_app; auto. }
    destruct (elab insts q2 s1) as [f2 s2]. cbn [fst snd evalF evalN atoms_good lexical declared components_ok] in *.
    split; [exact L1|]. split; [congruence|]. split; [intros E; rewrite J3, L3; reflexivity|]. split; [tauto|]. split; auto.
    intros w Hw. apply in_app_or in Hw as [Hw|Hw]; [apply J6 in Hw|apply L6 in Hw]; destruct Hw as (v & p' & -> & [[Hv ->]|Hv]); exists v; eexists;
      (split; [reflexivity|]); simpl; rewrite in_app_iff; tauto.
  - destruct (HB v (or_introl eq_refl)) as [Hv Hnm].
    pose proof (inv_AddVar s p nm K B G ids v I Hv Hnm) as I1.
    destruct (IH (AddVar s v) p nm K B (v :: G) ids I1 S) as (J1 & J2 & J3 & J4 & J5 & J6).
    { intros w Hw; apply HB; simpl; auto. }
    destruct (elab insts q (AddVar s v)) as [f s'] eqn:EL. cbn [fst snd evalF evalN atoms_good lexical declared components_ok] in *.
    assert (EN : sname (AddVar s v) v = pname v (nm v)) by (eapply inv_sname; [exact I1|simpl; auto]).
    split; [eapply inv_drop; eauto|]. split; [rewrite J2; apply AddVar_scopes|]. split; [exact J3|]. split; [exact J4|]. split.
    + rewrite EN. exact J5.
    + intros w [<-|Hw].
      * rewrite EN, Hnm. exists v, p. split; auto. left. simpl; auto.
      * apply J6 in Hw as (v' & p' & -> & [[Hv' ->]|Hv']); exists v'; eexists; (split; [reflexivity|]); simpl; tauto.
  - destruct S as (S1 & S2 & S3). pose proof I as [I1 I2 I3 I4 I5 I6 I7].
    assert (Lp : length p = length (scopes s)) by (rewrite <- I2; apply map_length).
    assert (T : turn (scopes s) (cID c) q (AddScope s (cID c)) p nm B G).
    { constructor.
      - now apply sc_inv_AddScope.
      - eexists. split; [reflexivity|]. reflexivity.
      - intros v k Hv. left. simpl in Hv. unfold sc_inv in I1. rewrite Forall_forall in I1. specialize (I1 _ Hv). simpl in I1.
        destruct (I5 v k Hv). repeat split; auto. lia.
      - intros v Hv. destruct (I6 v Hv) as [X Y]. unfold lvl_of in *. cbn [AddScope svars]. repeat split; auto.
        destruct (slookup (svars s) v) as [k|] eqn:Es; [|lia]. apply (sc_inv_lvl s v k I1) in Es. lia. }
    destruct (grounds_all (cID c) q (scopes s) p nm K B G ids IH I2 I3 I4 S1 I7 S2 (fun v Hv => proj1 (I6 v Hv)) S3 insts 0 FTrue _ T)
      as (L1 & L2 & L3 & L4 & L5). cbv zeta in *. change (Z.of_nat 0) with 0 in *.
    destruct (elab_all (elab insts q) insts 0 FTrue (AddScope s (cID c))) as [f s1] eqn:EL. cbn [fst snd evalF evalN components_ok] in *.
    destruct L1 as [T1 (g & T2 & T3) T4 T5]. destruct (pop_last s1 (scopes s) g T2) as [P1 P2].
    split; [|split; [|split; [|split; [|split]]]].
    + constructor.
      * now apply sc_inv_PopScope.
      * now rewrite P1.
      * now rewrite P1.
      * now rewrite P1.
      * intros v k Hv. rewrite P2 in Hv. apply filter_In in Hv as [Hv Hk]. cbn [snd] in Hk. apply negb_true_iff, Nat.eqb_neq in Hk.
        apply T4 in Hv as [(L & X & Y)|(-> & _)]; auto. lia.
      * intros v Hv. destruct (T5 v Hv) as (X & Y & Z0). split; auto. rewrite Y. f_equal. unfold lvl_of in *. rewrite P2.
        destruct (slookup (svars s1) v) as [k|] eqn:Es.
        -- rewrite (slookup_filter _ _ _ _ Es); auto. cbn [snd]. apply negb_true_iff, Nat.eqb_neq. lia.
        -- now rewrite (slookup_filter_none _ _ _ Es).
      * exact I7.
    + exact P1.
    + intros E. rewrite L2. unfold insts. split; [tauto|]. intros H; split; auto.
    + intros HC. apply L3; simpl; auto.
    + apply L4. simpl. auto.
    + intros w Hw. apply L5 in Hw as [[]|(j & v & p' & -> & H)]. exists v, p'. split; auto. right. exists j. exact H.
Qed.
End B1.
