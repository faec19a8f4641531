(* Queries with the guarded quantifiers written out: formulas whose variables
   and constants are resolved, and the proof that Encoding of a query is the
   encoding of that formula. *)
From Verif Require Import GoBase Cnf Query Walk Atoms Logop Spec Meaning CnfSem QueryLemmas Sym AtomBase WalkLemmas AtomMain.
Local Open Scope Z_scope.
Local Open Scope list_scope.

Inductive form :=
| FTrue
| FAtom (a : atom)
| FNot (p : form)
| FAnd (p q : form)
| FOr (p q : form)
| FWith (w : string) (p : form).

(* ---- writing out ---- *)

Definition set_scope (s : scoper) (i : Z) (e : inst) : scoper := snd (SetScope s i e).

(* Body of a guarded quantifier for the remaining instances, numbered from i. *)
Fixpoint elab_all (body : scoper -> form * scoper) (l : list inst) (i : Z) (acc : form) (s : scoper) : form * scoper :=
  match l with
  | [] => (acc, s)
  | e :: l => let (p, s') := body (set_scope s i e) in elab_all body l (i + 1) (FAnd acc p) s'
  end.

Fixpoint elab (insts : list inst) (q : query) (s : scoper) : form * scoper :=
  match q with
  | QNil => (FTrue, s)
  | QAtom a => (FAtom (resolve s a), s)
  | QNot q => let (p, s') := elab insts q s in (FNot p, s')
  | QAnd q1 q2 => let (p1, s1) := elab insts q1 s in let (p2, s2) := elab insts q2 s1 in (FAnd p1 p2, s2)
  | QOr q1 q2 => let (p1, s1) := elab insts q1 s in let (p2, s2) := elab insts q2 s1 in (FOr p1 p2, s2)
  | QWith v q => let s1 := AddVar s v in let (p, s2) := elab insts q s1 in (FWith (sname s1 v) p, s2)
  | QAll c q => let (p, s1) := elab_all (elab insts q) insts 0 FTrue (AddScope s (cID c)) in (p, snd (PopScope s1))
  end.

(* ---- encoding of formulas ---- *)

Definition negF (f : CNF) (vm : varman) : CNF * varman :=
  let g := Negate f (Some (vm_topv vm)) in (g, snd (UpdateTopV vm (TopV g))).

Definition withF (d : nat) (w : string) (vm : varman) : CNF * varman :=
  if CNFVarExists vm (w, 0, BOT) then (TrueCNF, vm) else run_emits vm (withvar_emits (Z.of_nat d) w).

Fixpoint encF (m : model) (p : form) (vm : varman) : res (CNF * varman) :=
  match p with
  | FTrue => Ok (TrueCNF, vm)
  | FAtom a =>
      rdo o <- atom_enc (mkCtx S0 vm m) a ;;
      match o with
      | ABool b => Ok (if b then TrueCNF else FalseCNF, vm)
      | AEmit es => Ok (run_emits vm es)
      end
  | FNot p => rdo r <- encF m p vm ;; Ok (negF (fst r) (snd r))
  | FAnd p q =>
      rdo r1 <- encF m p vm ;; rdo r2 <- encF m q (snd r1) ;;
      Ok (Conjunction (fst r1) (fst r2), snd r2)
  | FOr p q =>
      rdo r1 <- encF m p vm ;; rdo r2 <- encF m q (snd r1) ;;
      let g1 := negF (fst r1) (snd r2) in
      let g2 := negF (fst r2) (snd g1) in
      Ok (negF (Conjunction (fst g1) (fst g2)) (snd g2))
  | FWith w p =>
      let i := withF (Dim m) w vm in
      rdo r <- encF m p (snd i) ;; Ok (Conjunction (fst i) (fst r), snd r)
  end.

(* ---- no nil sub-query ---- *)
Fixpoint no_nil (q : query) : Prop :=
  match q with
  | QNil => False
  | QAtom _ => True
  | QNot q | QWith _ q | QAll _ q => no_nil q
  | QAnd q1 q2 | QOr q1 q2 => no_nil q1 /\ no_nil q2
  end.
Fixpoint has_all (q : query) : bool :=
  match q with
  | QNil | QAtom _ => false
  | QNot q | QWith _ q => has_all q
  | QAnd q1 q2 | QOr q1 q2 => has_all q1 || has_all q2
  | QAll _ _ => true
  end.

Lemma no_nil_is_nil : forall q, no_nil q -> is_nil q = false.
Proof. intros []; simpl; auto. contradiction. Qed.

(* ---- the scoper after writing out ---- *)

Lemma elab_all_inv : forall body, (forall s, sc_inv s -> sc_inv (snd (body s))) ->
  forall l i acc s, sc_inv s -> sc_inv (snd (elab_all body l i acc s)).
Proof.
  intros body Hb l. induction l as [|e l IH]; intros i acc s H; simpl; auto.
  destruct (body (set_scope s i e)) as [p s'] eqn:E. apply IH.
  change s' with (snd (p, s')). rewrite <- E. apply Hb. now apply sc_inv_SetScope.
Qed.
Lemma elab_inv : forall insts q s, sc_inv s -> sc_inv (snd (elab insts q s)).
Proof.
  intros insts q. induction q as [|a|q IH|q1 IH1 q2 IH2|q1 IH1 q2 IH2|v q IH|c q IH]; intros s H; simpl; auto.
  - specialize (IH s H). destruct (elab insts q s); auto.
  - specialize (IH1 s H). destruct (elab insts q1 s) as [p1 s1]. specialize (IH2 s1 IH1). destruct (elab insts q2 s1); auto.
  - specialize (IH1 s H). destruct (elab insts q1 s) as [p1 s1]. specialize (IH2 s1 IH1). destruct (elab insts q2 s1); auto.
  - specialize (IH _ (sc_inv_AddVar s v H)). destruct (elab insts q (AddVar s v)); auto.
  - pose proof (elab_all_inv (elab insts q) IH insts 0 FTrue _ (sc_inv_AddScope s (cID c) H)) as G.
    destruct (elab_all _ _ _ _ _) as [p s1]. now apply sc_inv_PopScope.
Qed.

Lemma SetScope_len : forall s i e, length (scopes (set_scope s i e)) = length (scopes s).
Proof. intros. apply SetScope_length. Qed.
Lemma elab_all_len : forall body, (forall s, length (scopes (snd (body s))) = length (scopes s)) ->
  forall l i acc s, length (scopes (snd (elab_all body l i acc s))) = length (scopes s).
Proof.
  intros body Hb l. induction l as [|e l IH]; intros i acc s; simpl; auto.
  destruct (body (set_scope s i e)) as [p s'] eqn:E. rewrite IH.
  change s' with (snd (p, s')). rewrite <- E. rewrite Hb. apply SetScope_len.
Qed.
Lemma AddVar_scopes : forall s v, scopes (AddVar s v) = scopes s.
Proof. intros. unfold AddVar. destruct (_ =? _)%nat; auto. destruct (slookup (svars s) v); auto. Qed.
Lemma elab_len : forall insts q s, length (scopes (snd (elab insts q s))) = length (scopes s).
Proof.
  intros insts q. induction q as [|a|q IH|q1 IH1 q2 IH2|q1 IH1 q2 IH2|v q IH|c q IH]; intros s; simpl; auto.
  - specialize (IH s). destruct (elab insts q s); auto.
  - specialize (IH1 s). destruct (elab insts q1 s) as [p1 s1]. specialize (IH2 s1). destruct (elab insts q2 s1); simpl in *; congruence.
  - specialize (IH1 s). destruct (elab insts q1 s) as [p1 s1]. specialize (IH2 s1). destruct (elab insts q2 s1); simpl in *; congruence.
  - specialize (IH (AddVar s v)). rewrite AddVar_scopes in IH. destruct (elab insts q (AddVar s v)); auto.
  - pose proof (elab_all_len (elab insts q) IH insts 0 FTrue (AddScope s (cID c))) as G.
    destruct (elab_all _ _ _ _ _) as [p s1]. simpl in *. rewrite app_length in G. simpl in G.
    unfold PopScope. destruct (scopes s1) as [|g l] eqn:E; simpl in G; [lia|].
    cbn [snd scopes]. rewrite length_removelast. simpl. lia.
Qed.

(* ---- Encoding is the encoding of the written out formula ---- *)

Lemma bind_ok : forall A B (x : M A) (f : A -> M B) c a c', x c = (Ok a, c') -> bind x f c = f a c'.
Proof. intros. unfold bind. now rewrite H. Qed.
Lemma wrap_ok : forall A p (x : M A) c a c', x c = (Ok a, c') -> wrap p x c = (Ok a, c').
Proof. intros. unfold wrap. now rewrite H. Qed.

Lemma rbind_ok_inv : forall A B (r : res A) (f : A -> res B) b, rbind r f = Ok b -> exists a, r = Ok a /\ f a = Ok b.
Proof. intros A B [a|e| |] f b H; simpl in H; try discriminate. eauto. Qed.

Lemma elab_all_snd : forall body l i a b s, snd (elab_all body l i a s) = snd (elab_all body l i b s).
Proof.
  intros body l. induction l as [|e l IH]; intros i a b s; simpl; auto. destruct (body (set_scope s i e)). apply IH.
Qed.

Section A0.
Variable m : model.
Variable t : tree.
Let insts := node_instances (Dim m) t.

Lemma neg_m : forall f s vm, m_Negate f (mkCtx s vm m) = (Ok (fst (negF f vm)), mkCtx s (snd (negF f vm)) m).
Proof. reflexivity. Qed.

Definition enc_as (q : query) : Prop := forall s vm f vm', sc_inv s ->
  encF m (fst (elab insts q s)) vm = Ok (f, vm') ->
  enc q (mkCtx s vm m) = (Ok f, mkCtx (snd (elab insts q s)) vm' m).

(* Accumulator and remaining iterations. *)
Fixpoint enc_all (body : scoper -> form * scoper) (l : list inst) (i : Z) (s : scoper) (r : CNF * varman) : res (CNF * varman) :=
  match l with
  | [] => Ok r
  | e :: l =>
      let (p, s') := body (set_scope s i e) in
      rdo r2 <- encF m p (snd r) ;; enc_all body l (i + 1) s' (Conjunction (fst r) (fst r2), snd r2)
  end.

Lemma encF_all : forall body l i acc s vm r r', encF m acc vm = Ok r ->
  encF m (fst (elab_all body l i acc s)) vm = Ok r' <-> enc_all body l i s r = Ok r'.
Proof.
  intros body l. induction l as [|e l IH]; intros i acc s vm r r' H; simpl.
  - rewrite H. reflexivity.
  - destruct (body (set_scope s i e)) as [p s'] eqn:E. destruct (encF m p (snd r)) as [r2|er| |] eqn:E2; cbn [rbind].
    + apply IH. simpl. rewrite H. cbn [rbind]. rewrite E2. reflexivity.
    + split; [|discriminate]. intros C. exfalso. revert C.
      assert (G : forall l i acc s, (encF m acc vm = Err er) -> encF m (fst (elab_all body l i acc s)) vm = Err er).
      { clear. intros l. induction l as [|e l IH]; intros i acc s H; simpl; auto. destruct (body (set_scope s i e)). apply IH. simpl. now rewrite H. }
      rewrite G; [discriminate|]. simpl. rewrite H. cbn [rbind]. now rewrite E2.
    + split; [|discriminate]. intros C. exfalso. revert C.
      assert (G : forall l i acc s, (encF m acc vm = Panic) -> encF m (fst (elab_all body l i acc s)) vm = Panic).
      { clear. intros l. induction l as [|e l IH]; intros i acc s H; simpl; auto. destruct (body (set_scope s i e)). apply IH. simpl. now rewrite H. }
      rewrite G; [discriminate|]. simpl. rewrite H. cbn [rbind]. now rewrite E2.
    + split; [|discriminate]. intros C. exfalso. revert C.
      assert (G : forall l i acc s, (encF m acc vm = Hang) -> encF m (fst (elab_all body l i acc s)) vm = Hang).
      { clear. intros l. induction l as [|e l IH]; intros i acc s H; simpl; auto. destruct (body (set_scope s i e)). apply IH. simpl. now rewrite H. }
      rewrite G; [discriminate|]. simpl. rewrite H. cbn [rbind]. now rewrite E2.
Qed.

Lemma forall_loop_ok : forall q, enc_as q -> forall l fuel it k it' i s acc vm r,
  sc_inv s -> scopes s <> [] ->
  runs it l k it' -> (k < next_fuel (it_nodes it))%nat -> it_step it' = Ok (inr (false, it')) ->
  (length l < fuel)%nat ->
  enc_all (elab insts q) l i s (acc, vm) = Ok r ->
  forall_loop fuel (enc q) it i acc (mkCtx s vm m)
  = (Ok (fst r), mkCtx (snd (elab_all (elab insts q) l i FTrue s)) (snd r) m).
Proof.
  intros q IHq l. induction l as [|e l IH]; intros fuel it k it' i s acc vm r Hs Hne R Hk He Hf H.
  - destruct fuel as [|fuel]; [lia|]. pose proof (it_next_runs _ _ _ _ _ R Hk He) as N. simpl in N.
    cbn [forall_loop]. unfold bind at 1, lift. unfold Next. rewrite N. simpl in H. injection H as <-. reflexivity.
  - destruct fuel as [|fuel]; [simpl in Hf; lia|].
    destruct (it_next_runs _ _ _ _ _ R Hk He) as (i1 & k1 & N & T & R1 & K1 & Nd).
    cbn [forall_loop]. unfold bind at 1, lift. unfold Next. rewrite N. cbv beta iota.
    cbn [enc_all elab_all] in *.
    unfold bind at 1, m_SetScope. cbn [cScoper]. rewrite T.
    destruct (SetScope s i e) as [er s1] eqn:ES.
    assert (er = None) as -> by (unfold SetScope in ES; destruct (scopes s); [congruence|congruence]).
    assert (E1 : set_scope s i e = s1) by (unfold set_scope; now rewrite ES). rewrite E1 in *.
    assert (Hs1 : sc_inv s1) by (rewrite <- E1; now apply sc_inv_SetScope).
    assert (Hl1 : length (scopes s1) = length (scopes s)) by (rewrite <- E1; apply SetScope_len).
    destruct (elab insts q s1) as [p s2] eqn:EL. cbn [snd] in H.
    apply rbind_ok_inv in H as ([f2 vm2] & EF & H). cbn [fst snd] in H.
    unfold set_scoper. cbn [cVM cModel].
    pose proof (IHq s1 vm f2 vm2 Hs1) as Q. rewrite EL in Q. cbn [fst snd] in Q. specialize (Q EF).
    rewrite (bind_ok _ _ _ _ _ _ _ Q).
    assert (Hs2 : sc_inv s2) by (pose proof (elab_inv insts q s1 Hs1) as X; now rewrite EL in X).
    assert (Hl2 : length (scopes s2) = length (scopes s1)) by (pose proof (elab_len insts q s1) as X; now rewrite EL in X).
    rewrite (IH fuel i1 k1 it' (i + 1) s2 (Conjunction acc f2) vm2 r); auto.
    + f_equal. f_equal. apply elab_all_snd.
    + intros C. apply Hne. rewrite C in Hl2. simpl in Hl2. destruct (scopes s); auto. simpl in *. lia.
    + rewrite Nd. lia.
    + simpl in Hf. lia.
Qed.

Lemma insts_len : is_dtree m t -> (length insts < forall_fuel (Nodes m))%nat.
Proof.
  intros DT. unfold insts, node_instances, forall_fuel.
  assert (G : forall t e, length (node_insts e t) = length (positions t)).
  { clear. induction t as [|i f z IHz o IHo]; intros e; simpl; auto. rewrite !app_length. now rewrite IHz, IHo. }
  rewrite G. destruct DT as (_ & _ & _ & _ & L & _). lia.
Qed.

Theorem enc_elab : forall q, no_nil q -> (has_all q = true -> is_dtree m t) -> enc_as q.
Proof.
  induction q as [|a|q IH|q1 IH1 q2 IH2|q1 IH1 q2 IH2|v q IH|c q IH]; intros NN HA s vm f vm' Hs H;
    cbn [no_nil has_all] in NN, HA.
  - contradiction.
  - cbn [enc elab fst snd encF] in *. unfold enc_atom. rewrite (atom_enc_resolve s vm m vm a Hs).
    apply rbind_ok_inv in H as (o & E & H). rewrite E. destruct o as [b|es].
    + injection H as <- <-. reflexivity.
    + injection H as H. cbn [cVM]. rewrite H. reflexivity.
  - specialize (IH NN HA s). cbn [enc elab] in *. rewrite (no_nil_is_nil q NN).
    destruct (elab insts q s) as [p s'] eqn:E. cbn [fst snd encF] in *.
    apply rbind_ok_inv in H as ([f1 vm1] & E1 & H). injection H as H1 H2. cbn [fst snd] in *.
    apply wrap_ok. erewrite bind_ok; [|apply (IH vm f1 vm1 Hs E1)]. rewrite neg_m. unfold negF. cbn [fst snd]. congruence.
  - assert (A1 : has_all q1 = true -> is_dtree m t) by (intros X; apply HA; now rewrite X).
    assert (A2 : has_all q2 = true -> is_dtree m t) by (intros X; apply HA; rewrite X; apply orb_true_r).
    destruct NN as [N1 N2]. specialize (IH1 N1 A1 s). cbn [enc elab] in *. rewrite (no_nil_is_nil q1 N1), (no_nil_is_nil q2 N2).
    pose proof (elab_inv insts q1 s Hs) as Hs1.
    destruct (elab insts q1 s) as [p1 s1] eqn:E. specialize (IH2 N2 A2 s1). cbn [snd] in Hs1.
    destruct (elab insts q2 s1) as [p2 s2] eqn:E2. cbn [fst snd encF] in *.
    apply rbind_ok_inv in H as ([f1 vm1] & F1 & H). apply rbind_ok_inv in H as ([f2 vm2] & F2 & H). cbn [fst snd] in *.
    injection H as <- <-.
    apply wrap_ok. erewrite bind_ok; [|apply wrap_ok; apply (IH1 vm f1 vm1 Hs F1)].
    erewrite bind_ok; [|apply wrap_ok; apply (IH2 vm1 f2 vm2 Hs1 F2)]. reflexivity.
  - assert (A1 : has_all q1 = true -> is_dtree m t) by (intros X; apply HA; now rewrite X).
    assert (A2 : has_all q2 = true -> is_dtree m t) by (intros X; apply HA; rewrite X; apply orb_true_r).
    destruct NN as [N1 N2]. specialize (IH1 N1 A1 s). cbn [enc elab] in *. rewrite (no_nil_is_nil q1 N1), (no_nil_is_nil q2 N2).
    pose proof (elab_inv insts q1 s Hs) as Hs1.
    destruct (elab insts q1 s) as [p1 s1] eqn:E. specialize (IH2 N2 A2 s1). cbn [snd] in Hs1.
    destruct (elab insts q2 s1) as [p2 s2] eqn:E2. cbn [fst snd encF] in *.
    apply rbind_ok_inv in H as ([f1 vm1] & F1 & H). apply rbind_ok_inv in H as ([f2 vm2] & F2 & H). cbn [fst snd] in *.
    injection H as H1 H2.
    apply wrap_ok. erewrite bind_ok; [|apply wrap_ok; apply (IH1 vm f1 vm1 Hs F1)].
    erewrite bind_ok; [|apply wrap_ok; apply (IH2 vm1 f2 vm2 Hs1 F2)].
    erewrite bind_ok; [|apply neg_m]. erewrite bind_ok; [|apply neg_m]. rewrite neg_m. unfold negF in *. cbn [fst snd] in *. congruence.
  - specialize (IH NN HA (AddVar s v)). cbn [enc elab] in *. rewrite (no_nil_is_nil q NN).
    destruct (elab insts q (AddVar s v)) as [p s'] eqn:E. cbn [fst snd encF] in *.
    apply rbind_ok_inv in H as ([f1 vm1] & E1 & H). injection H as H1 H2. cbn [fst snd] in *.
    apply wrap_ok. erewrite bind_ok; [|reflexivity]. unfold set_scoper. cbn [cVM cModel cScoper].
    pose proof (sc_inv_AddVar s v Hs) as Hs1.
    assert (EI : encodeI v (mkCtx (AddVar s v) vm m) =
      (Ok (fst (withF (Dim m) (sname (AddVar s v) v) vm)), mkCtx (AddVar s v) (snd (withF (Dim m) (sname (AddVar s v) v) vm)) m)).
    { unfold encodeI, bind, m_ScopeVar. cbn [cScoper]. rewrite ScopeVar_ok by auto. cbv beta iota. unfold withF, sname.
      cbn [cVM cModel]. destruct (CNFVarExists _ _); [reflexivity|]. destruct (run_emits _ _). reflexivity. }
    erewrite bind_ok; [|exact EI]. erewrite bind_ok; [|apply (IH _ f1 vm1 Hs1 E1)]. unfold ret. congruence.
  - specialize (IH NN (fun _ => HA eq_refl)). specialize (HA eq_refl).
    cbn [enc elab] in *. rewrite (no_nil_is_nil q NN).
    apply wrap_ok. erewrite bind_ok; [|reflexivity]. unfold set_scoper. cbn [cVM cModel cScoper].
    destruct (elab_all (elab insts q) insts 0 FTrue (AddScope s (cID c))) as [p s1] eqn:E. cbn [fst snd] in *.
    destruct (iter_runs m t HA) as (it & it' & k & I1 & I2 & I3 & I4 & I5).
    unfold defer_PopScope. unfold bind at 1, lift. cbn [cModel]. rewrite I1.
    assert (EA : enc_all (elab insts q) insts 0 (AddScope s (cID c)) (TrueCNF, vm) = Ok (f, vm')).
    { eapply (encF_all (elab insts q) insts 0 FTrue); [reflexivity|]. rewrite E. exact H. }
    erewrite (forall_loop_ok q IH insts); [|apply sc_inv_AddScope; auto| |exact I3|rewrite I2; exact I4|exact I5|now apply insts_len|exact EA].
    + cbn [cScoper]. rewrite E. cbn [snd fst].
      assert (L1 : length (scopes s1) = length (scopes (AddScope s (cID c)))).
      { pose proof (elab_all_len (elab insts q) (elab_len insts q) insts 0 FTrue (AddScope s (cID c))) as X. now rewrite E in X. }
      simpl in L1. rewrite app_length in L1. simpl in L1.
      unfold PopScope at 1. unfold PopScope. destruct (scopes s1) as [|g l] eqn:ES; [simpl in L1; lia|]. reflexivity.
    + simpl. destruct (scopes s); discriminate.
Qed.
End A0.
