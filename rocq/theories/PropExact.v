(* Sharper versions of properties that hold only in part: what the code does in
   the remaining cases too (C07, C10, C20). *)
From Verif Require Import GoBase GoLemmas Cnf Query QueryLemmas QueryHist Walk Atoms Logop Spec Meaning CnfSem Sym AtomBase AtomSimple Counter AtomMain Form Master Block Sat AtomCnf PropQuery PropAtoms PropContext PropGraph.
Local Open Scope string_scope.
Local Open Scope Z_scope.
Local Open Scope list_scope.

(* ---- C10: nested scopes with the same target ---- *)

(* g is the first opened of the open scopes with target id. *)
Definition outermost (id : string) (l : list scope) (g : scope) : Prop :=
  exists before after, l = before ++ g :: after /\ sTarget g = id /\ unbound id before.

Lemma find_scope_outermost : forall l id g, find_scope l id = Some g -> outermost id l g.
Proof.
  induction l as [|h l IH]; intros id g H; simpl in H; [discriminate|].
  destruct (String.eqb_spec (sTarget h) id) as [E|E].
  - injection H as <-. exists [], l. split; [reflexivity|]. split; [exact E|]. intros x [].
  - destruct (IH id g H) as (b & a & -> & T & U). exists (h :: b), a. split; [reflexivity|]. split; [exact T|].
    intros x [<-|Hx]; [exact E|auto].
Qed.

(* In every scoper: the value of the scope opened first, whatever was opened
   since; so the innermost value is returned exactly when the two agree. *)
Theorem C10_outermost_value : forall s c,
  (unbound (cID c) (scopes s) /\ ScopeConst s c = (c, false)) \/
  (exists g, outermost (cID c) (scopes s) g /\ ScopeConst s c = (mkQConst (cID c) (sValue g), true) /\
     forall i, innermost (cID c) (scopes s) i ->
       (ScopeConst s c = (mkQConst (cID c) (sValue i), true) <-> sValue i = sValue g)).
Proof.
  intros s c. unfold ScopeConst. destruct (find_scope (scopes s) (cID c)) as [g|] eqn:E.
  - right. exists g. split; [now apply find_scope_outermost|]. split; [reflexivity|]. intros i _. split.
    + intros H. injection H as H. auto.
    + intros ->. reflexivity.
  - left. split; [now apply find_scope_none|reflexivity].
Qed.
Print Assumptions C10_outermost_value.

(* Only one scope can be the outermost one. *)
Theorem C10_outermost_unique : forall id l g g', outermost id l g -> outermost id l g' -> g = g'.
Proof.
  intros id l g g' (b & a & E & T & U) (b' & a' & E' & T' & U'). subst l. revert b' E' U U'.
  induction b as [|x b IH]; intros [|y b'] E U U'; simpl in E; injection E as E1 E2.
  - exact E1.
  - exfalso. apply (U' y); [left; reflexivity|congruence].
  - exfalso. apply (U x); [left; reflexivity|congruence].
  - apply (IH b'); auto; intros z Hz; [apply U|apply U']; right; exact Hz.
Qed.
Print Assumptions C10_outermost_unique.

Example C10_outermost_case :
  let s := sc_after (mkScoper [] []) [KAddScope "a"; KSetScope 0 [BOT]; KAddScope "b"; KAddScope "a"; KSetScope 1 [ONE]] in
  outermost "a" (scopes s) (mkScope "a" [BOT] 0) /\ innermost "a" (scopes s) (mkScope "a" [ONE] 1) /\
  ScopeConst s (mkQConst "a" []) = (mkQConst "a" [BOT], true).
Proof.
  cbv zeta. split; [|split; [|reflexivity]].
  - exists [], [mkScope "b" [] 0; mkScope "a" [ONE] 1]. split; [reflexivity|]. split; [reflexivity|]. intros x [].
  - apply (inn_here "a" [mkScope "a" [BOT] 0; mkScope "b" [] 0]). reflexivity.
Qed.

(* ---- C07: what a Reset with open scopes leaves behind ---- *)

Definition deep (c : ctx) : Prop := Forall (fun kv => (1 <= snd kv)%nat) (svars (cScoper c)).

Lemma deep_call : forall c k, deep c -> deep (snd (run_call c k)).
Proof.
  intros [[sc sv] vm m] [k|k|] H; unfold deep in *; cbn [run_call cScoper cVM cModel svars] in *.
  - destruct (run_vm vm k). exact H.
  - destruct k as [v|c|v|t| |i x]; cbn [run_sc]; cbn [snd cScoper]; auto.
    + unfold AddVar. cbn [scopes svars]. destruct (length sc =? 0)%nat eqn:L; [exact H|].
      destruct (slookup sv v); [exact H|]. constructor; [|exact H]. apply Nat.eqb_neq in L. cbn [snd]. lia.
    + unfold PopScope. cbn [scopes svars]. destruct sc as [|g l]; [exact H|]. cbn [snd cScoper svars].
      rewrite Forall_forall in *. intros x Hx. apply filter_In in Hx. apply H, Hx.
    + unfold SetScope. cbn [scopes svars]. destruct sc as [|g l]; exact H.
  - exact H.
Qed.
Lemma deep_after : forall h c, deep c -> deep (after c h).
Proof. induction h as [|k h IH]; intros c H; [exact H|]. rewrite after_cons. apply IH, deep_call, H. Qed.

Lemma after_app : forall h1 h2 c, after c (h1 ++ h2) = after (after c h1) h2.
Proof. induction h1 as [|k h IH]; intros h2 c; [reflexivity|]. simpl app. rewrite !after_cons. apply IH. Qed.

Lemma longer : forall a b, append a b = a -> b = EmptyString.
Proof. induction a as [|x a IH]; intros b H; [exact H|]. injection H as H. auto. Qed.

(* With a scope open, a variable recorded at level n >= 1 is not scoped to
   itself. *)
Lemma recorded_scoped : forall g l sv v n, slookup sv v = Some n -> (1 <= n)%nat ->
  ScopeVar (mkScoper (g :: l) sv) v <> Ok v.
Proof.
  intros g l sv v n E N H. unfold ScopeVar in H. cbn [scopes svars length Nat.eqb] in H. rewrite E in H.
  destruct n as [|n]; [lia|]. cbn [seq fold_left rbind] in H.
  change (sget (g :: l) (Z.of_nat 0)) with (Ok g) in H. cbn [rbind] in H.
  assert (G : forall k b, match fold_left (fun acc i => rdo b <- acc ;; rdo sc <- sget (g :: l) (Z.of_nat i) ;; Ok (b ++ scope_suffix sc)%string) k (Ok b) with
    | Ok r => exists e, r = (b ++ e)%string | _ => True end).
  { assert (Bad : forall k x, (forall a, x <> Ok a) -> match fold_left (fun acc i => rdo b <- acc ;; rdo sc <- sget (g :: l) (Z.of_nat i) ;; Ok (b ++ scope_suffix sc)%string) k x with Ok r => False | _ => True end).
    { induction k as [|i k IH]; intros x Hx; cbn [fold_left].
      - destruct x; auto. apply (Hx a). reflexivity.
      - apply IH. destruct x; cbn [rbind]; try discriminate. exfalso. apply (Hx a). reflexivity. }
    induction k as [|i k IH]; intros b; cbn [fold_left rbind].
    - exists EmptyString. clear. induction b as [|x b IH]; [reflexivity|]. cbn [append]. now rewrite <- IH.
    - destruct (sget (g :: l) (Z.of_nat i)) as [sc| | |]; cbn [rbind].
      + specialize (IH (b ++ scope_suffix sc)%string). destruct (fold_left _ k (Ok (b ++ scope_suffix sc)%string)); auto.
        destruct IH as (e & ->). exists (scope_suffix sc ++ e)%string. clear. induction b as [|x b IH]; [reflexivity|]. cbn [append]. now rewrite IH.
      + match goal with |- context [fold_left ?f k ?x] => pose proof (Bad k x ltac:(discriminate)) as Q; destruct (fold_left f k x); auto; contradiction end.
      + match goal with |- context [fold_left ?f k ?x] => pose proof (Bad k x ltac:(discriminate)) as Q; destruct (fold_left f k x); auto; contradiction end.
      + match goal with |- context [fold_left ?f k ?x] => pose proof (Bad k x ltac:(discriminate)) as Q; destruct (fold_left f k x); auto; contradiction end. }
  specialize (G (seq 1 n) (v ++ scope_suffix g)%string). cbn [Nat.eqb] in H. rewrite H in G. destruct G as (e & G).
  assert (A : forall a b d : string, ((a ++ b) ++ d = a ++ (b ++ d))%string) by (induction a as [|y a IHa]; intros; [reflexivity|]; cbn [append]; now rewrite IHa).
  rewrite A in G. symmetry in G. apply longer in G. unfold scope_suffix in G. cbn [append] in G. discriminate.
Qed.

(* Whatever the history, also with earlier Resets in open scopes: the context
   after Reset behaves like a fresh one exactly when no variable was recorded as
   declared in a scope still open. *)
Theorem C07_reset_exact : forall m h,
  (forall later, observe (after (BasicQContext m) (h ++ [KReset])) later = observe (BasicQContext m) later) <->
  svars (cScoper (after (BasicQContext m) h)) = [].
Proof.
  intros m h. rewrite after_app. set (c := after (BasicQContext m) h).
  assert (D : deep c) by (apply deep_after; constructor).
  assert (M : cModel c = m) by (apply after_model).
  replace (after c [KReset]) with (CtxReset c) by reflexivity. split.
  - intros H. destruct (svars (cScoper c)) as [|[v n] sv] eqn:E; [reflexivity|exfalso].
    specialize (H [KS (KAddScope ""); KS (KScopeVar v)]). cbn in H. injection H as H.
    unfold deep in D. rewrite E in D. inversion D as [|x y D1 D2]. subst x y. cbn [snd] in D1.
    revert H. change (ScopeVar (mkScoper [mkScope "" [] 0] (svars (cScoper c))) v <> Ok v).
    rewrite E. apply (recorded_scoped _ _ _ v n); [|exact D1]. simpl. now rewrite String.eqb_refl.
  - intros E later. f_equal. unfold CtxReset, BasicQContext, ScoperReset. rewrite E, M. reflexivity.
Qed.
Print Assumptions C07_reset_exact.

(* A history that resets inside a scope and yet leaves nothing behind. *)
Example C07_exact_case :
  let h := [KS (KAddScope "a"); KS (KAddVar "v"); KS KPopScope; KS (KAddScope "b"); KReset; KS (KAddVar "w")] in
  svars (cScoper (after (BasicQContext (mkModel 1 [])) h)) = [] /\ ~ resets_unscoped (BasicQContext (mkModel 1 [])) (h ++ [KReset]).
Proof. split; [reflexivity|]. cbn. intros (_ & _ & _ & _ & H & _). specialize (H eq_refl). discriminate. Qed.

(* ---- C20: the two closed-form answers of LEH ---- *)

Lemma encoded_iff : forall c a ns new P P', (forall E, P E <-> P' E) -> encoded c a ns new P -> encoded c a ns new P'.
Proof.
  intros c a ns new P P' H [(f & c' & E & G & X & S & A) (g & c2 & E2 & G2 & X2 & S2 & A2)]. split.
  - exists f, c'. split; [exact E|]. split; [exact G|]. split; [exact X|]. split; [|exact A].
    intros r E'. intros. rewrite <- H. now apply S.
  - exists g, c2. split; [exact E2|]. split; [exact G2|]. split; [exact X2|]. split; [|exact A2].
    intros r E'. intros. rewrite <- H. now apply S2.
Qed.

Lemma full_dec : forall d e, length e = d -> full d e \/ ~ full d e.
Proof.
  intros d e L. rewrite <- (IsFull_ok d (mkQConst "" e) L). destruct (IsFull (mkQConst "" e)); [left; reflexivity|right; discriminate].
Qed.

Lemma hamming_same : forall d e, hamming d e e = 0%nat.
Proof.
  intros d e. apply Nat2Z.inj. rewrite <- cnt_hamming. induction d as [|d IH]; [reflexivity|]. cbn [cnt]. rewrite IH.
  unfold bit_ne. now rewrite Z.eqb_refl.
Qed.

(* In every context, whatever the constants: LEH with one variable in the
   second or third place says leh, or that the constants are full and at the
   greatest distance (equal): then it does not look at the variable. *)
Theorem C20_leh_as_coded : forall c g v k1 k2 n, good_ctx c -> (0 < Dim (cModel c))%nat -> let d := Dim (cModel c) in
  let str k := AsString (fst (ScopeConst (cScoper c) k)) in
  named_as c v n -> valid_const c k1 -> valid_const c k2 ->
  encoded c (LehCVC k1 v k2 (Some g)) [n] (new_name c [n] (g n (str k2)))
    (fun E => leh d (value c k1) (E n) (value c k2) \/
              (full d (value c k1) /\ full d (value c k2) /\ hamming d (value c k1) (value c k2) = d)) /\
  encoded c (LehCCV k1 k2 v (Some g)) [n] (new_name c [n] (g n (str k1)))
    (fun E => leh d (value c k1) (value c k2) (E n) \/ (full d (value c k1) /\ value c k1 = value c k2)).
Proof.
  intros c g v k1 k2 n G Hd d str N V1 V2.
  destruct (C20_leh_exact_partial c g g G Hd) as (_ & _ & P & _). destruct (P v k1 k2 n N V1 V2) as (_ & P1 & P2). clear P.
  assert (L1 := proj1 V1). assert (L2 := proj1 V2). fold d in P1, P2, L1, L2. split.
  - destruct (full_dec d _ L1) as [F1|F1]; [destruct (full_dec d _ L2) as [F2|F2]; [destruct (Nat.eq_dec (hamming d (value c k1) (value c k2)) d) as [Q|Q]|]|].
    2,3,4: eapply encoded_iff; [|apply P1; intros; tauto]; intros E; cbv beta; tauto.
    clear P1 P2. pose proof (named_sname c v n G N) as ->. unfold str.
    apply (encoded_as c (Leaf 0 true) (LehCVC k1 v k2 (Some g)) _ _ G); [|intros H; own].
    destruct c as [s vm m]. unfold encodes_as. rewrite (atom_enc_resolve s vm m vm _ (proj2 G)).
    unfold valid_const, d in *. unfold value in *. clear d str N G. cbn [resolve map_atom cScoper cModel] in *. unfold sconst.
    generalize dependent (fst (ScopeConst s k1)). intros c1. intros. generalize dependent (fst (ScopeConst s k2)). intros c2. intros.
    cbn [atom_enc need]. atom_start.
    rewrite (proj2 (IsFull_ok _ c1 L1) F1), (proj2 (IsFull_ok _ c2 L2) F2). cbn [negb orb].
    rewrite (hd_cc_ok (Dim m)), Q by assumption. rewrite Z.eqb_refl. eexists. split; [reflexivity|]. intros E. split; auto.
  - assert (D : value c k1 = value c k2 \/ value c k1 <> value c k2).
    { destruct (list_eq_dec Z.eq_dec (value c k1) (value c k2)); auto. }
    destruct (full_dec d _ L1) as [F1|F1]; [destruct D as [Q|Q]|].
    2,3: eapply encoded_iff; [|apply P2; intros; tauto]; intros E; cbv beta; tauto.
    clear P1 P2. pose proof (named_sname c v n G N) as ->. unfold str.
    apply (encoded_as c (Leaf 0 true) (LehCCV k1 k2 v (Some g)) _ _ G); [|intros H; own].
    destruct c as [s vm m]. unfold encodes_as. rewrite (atom_enc_resolve s vm m vm _ (proj2 G)).
    unfold valid_const, d in *. unfold value in *. clear d str N G. cbn [resolve map_atom cScoper cModel] in *. unfold sconst.
    generalize dependent (fst (ScopeConst s k1)). intros c1. intros. generalize dependent (fst (ScopeConst s k2)). intros c2. intros.
    cbn [atom_enc need]. atom_start.
    assert (F2 : full (Dim m) (cVal c2)) by (rewrite <- Q; exact F1).
    rewrite (proj2 (IsFull_ok _ c1 L1) F1), (proj2 (IsFull_ok _ c2 L2) F2). cbn [negb orb].
    rewrite (hd_cc_ok (Dim m)), Q by assumption.
    replace (hamming (Dim m) (cVal c2) (cVal c2)) with 0%nat by (symmetry; apply hamming_same).
    eexists. split; [reflexivity|]. intros E. split; auto.
Qed.
Print Assumptions C20_leh_as_coded.

Example C20_as_coded_case : exists f1 c1 f2 c2, let c := BasicQContext two in
  let k := mkQConst "" [ZERO] in let l := mkQConst "" [ONE] in
  named_as c "x" "x" /\ valid_const c k /\ valid_const c l /\
  enc (QAtom (LehCVC k "x" l (Some append))) c = (Ok f1, c1) /\ f1 = TrueCNF /\
  enc (QAtom (LehCVC k "x" k (Some append))) c = (Ok f2, c2) /\ f2 <> TrueCNF /\ f2 <> FalseCNF.
Proof.
  do 4 eexists. cbv zeta. split; [reflexivity|]. split; [split; [reflexivity|repeat constructor; right; auto]|].
  split; [split; [reflexivity|repeat constructor; right; auto]|]. split; [reflexivity|]. split; [reflexivity|]. split; [reflexivity|]. split; discriminate.
Qed.
