(* Soundness and completeness of the encoding of formulas. *)
From Verif Require Import GoBase Cnf Query Walk Atoms Logop Spec Meaning CnfSem QueryLemmas Sym AtomBase AtomSimple AtomMain Form.
Local Open Scope Z_scope.
Local Open Scope list_scope.

(* Meaning of a formula for an assignment of instances to its variables. *)
Fixpoint evalF (d : nat) (t : tree) (E : env) (p : form) : Prop :=
  match p with
  | FTrue => True
  | FAtom a => holds d t E a
  | FNot p => ~ evalF d t E p
  | FAnd p q => evalF d t E p /\ evalF d t E q
  | FOr p q => evalF d t E p \/ evalF d t E q
  | FWith _ p => evalF d t E p
  end.

Fixpoint declared (p : form) : list string :=
  match p with
  | FTrue | FAtom _ => []
  | FNot p => declared p
  | FAnd p q | FOr p q => declared p ++ declared q
  | FWith w p => w :: declared p
  end.
Fixpoint auxs (p : form) : list (string * key) :=
  match p with
  | FTrue => []
  | FAtom a => aux_of a
  | FNot p | FWith _ p => auxs p
  | FAnd p q | FOr p q => auxs p ++ auxs q
  end.
Fixpoint atoms_good (m : model) (t : tree) (p : form) : Prop :=
  match p with
  | FTrue => True
  | FAtom a => atom_ok (Dim m) a /\ model_ok m t a
  | FNot p | FWith _ p => atoms_good m t p
  | FAnd p q | FOr p q => atoms_good m t p /\ atoms_good m t q
  end.
(* Every variable of a component is declared around it. *)
Fixpoint lexical (G : list string) (p : form) : Prop :=
  match p with
  | FTrue => True
  | FAtom a => incl (vars_of a) G
  | FNot p => lexical G p
  | FAnd p q | FOr p q => lexical G p /\ lexical G q
  | FWith w p => lexical (w :: G) p
  end.

(* The instance a valuation gives to a variable. *)
Definition decode (d : nat) (tv : tval) (w : string) : inst :=
  map (fun i => if tv (w, i, ZERO) then ZERO else if tv (w, i, ONE) then ONE else BOT) (indices_below d).

Lemma decode_valid : forall d tv w, valid_inst d (decode d tv w).
Proof.
  intros d tv w. split.
  - unfold decode, indices_below. now rewrite !map_length, seq_length.
  - apply Forall_forall. intros x Hx. apply in_map_iff in Hx as (i & <- & _). unfold valid_feat.
    destruct (tv (w, i, ZERO)); auto. destruct (tv (w, i, ONE)); auto.
Qed.
Lemma decode_feat : forall d tv w i, in_range d i ->
  feat (decode d tv w) i = if tv (w, i, ZERO) then ZERO else if tv (w, i, ONE) then ONE else BOT.
Proof.
  intros d tv w i Hi. unfold feat, decode.
  set (f := fun i => if tv (w, i, ZERO) then ZERO else if tv (w, i, ONE) then ONE else BOT).
  rewrite (nth_indep _ BOT (f 0)) by (unfold indices_below; rewrite !map_length, seq_length; unfold in_range in Hi; lia).
  rewrite map_nth. unfold indices_below. change 0 with (Z.of_nat 0%nat) at 1. rewrite map_nth, seq_nth by (unfold in_range in Hi; lia).
  unfold f. simpl. rewrite Z2Nat.id by (unfold in_range in Hi; lia). reflexivity.
Qed.
Lemma decode_exactly_one : forall d tv w,
  (forall i, in_range d i -> exactly_one (tv (w, i, BOT)) (tv (w, i, ZERO)) (tv (w, i, ONE))) ->
  rep d tv w (decode d tv w).
Proof.
  intros d tv w H. split; [apply decode_valid|]. intros i Hi x Hx. rewrite decode_feat by auto.
  specialize (H i Hi). unfold exactly_one in H. unfold valid_feat in Hx.
  destruct (tv (w, i, ZERO)) eqn:EZ, (tv (w, i, ONE)) eqn:EO, (tv (w, i, BOT)) eqn:EB; destruct Hx as [->|[->| ->]];
    rewrite ?EZ, ?EO, ?EB; auto; intuition discriminate.
Qed.
Lemma rep_exactly_one : forall d tv w e, rep d tv w e ->
  forall i, in_range d i -> exactly_one (tv (w, i, BOT)) (tv (w, i, ZERO)) (tv (w, i, ONE)).
Proof.
  intros d tv w e R i Hi. rewrite (rep_BOT _ _ _ _ _ R Hi), (rep_ZERO _ _ _ _ _ R Hi), (rep_ONE _ _ _ _ _ R Hi).
  assert (V : valid_feat (feat e i)).
  { destruct R as ((L & F) & _). rewrite Forall_forall in F. apply F. unfold feat. apply nth_In. unfold in_range in Hi; lia. }
  unfold exactly_one. destruct V as [->|[->| ->]]; simpl; auto.
Qed.
Lemma rep_decode : forall d tv w e, rep d tv w e -> rep d tv w (decode d tv w).
Proof. intros d tv w e R. apply decode_exactly_one. now apply (rep_exactly_one _ _ _ e). Qed.
Lemma decode_rep : forall d tv w e, rep d tv w e -> decode d tv w = e.
Proof.
  intros d tv w e R. pose proof (rep_decode _ _ _ _ R) as R'. destruct R as ((L & F) & R), R' as ((L' & F') & R').
  apply (nth_ext _ _ BOT BOT); [congruence|]. intros n Hn. rewrite L' in Hn.
  assert (Hi : in_range d (Z.of_nat n)) by (unfold in_range; lia).
  assert (V : valid_feat (feat e (Z.of_nat n))).
  { rewrite Forall_forall in F. apply F. unfold feat. apply nth_In. lia. }
  specialize (R _ Hi _ V). specialize (R' _ Hi _ V). rewrite R', Z.eqb_refl in R. apply Z.eqb_eq in R.
  unfold feat in R. now rewrite Nat2Z.id in R.
Qed.

(* ---- negation in a context ---- *)

Lemma Con_agree : forall k r r' c, cnf_wf c -> tv c <= k -> agree k r r' -> Con r c = Con r' c.
Proof.
  intros k r r' c (_ & _ & W) Hk A. unfold Con. apply (clauses_true_agree k); auto. eapply clauses_bound_weaken; eauto.
Qed.
Lemma matches_agree : forall vm r r' tv, vm_inv vm -> agree (vm_topv vm) r r' -> matches vm r tv -> matches vm r' tv.
Proof.
  intros vm r r' tv (_ & I & _) A M u n Hu. rewrite <- (M u n Hu). symmetry. apply A. eapply I; eauto.
Qed.

Lemma negF_spec : forall f vm, vm_inv vm -> cnf_wf f -> tv f <= vm_topv vm ->
  let g := fst (negF f vm) in let vm' := snd (negF f vm) in
  vm_inv vm' /\ vm_ext vm vm' /\ vm_vars vm' = vm_vars vm /\ cnf_wf g /\ tv g <= vm_topv vm' /\
  (forall r, Con r g = true -> Con r f = true /\ Sem r g = negb (Sem r f)) /\
  (forall r, Con r f = true -> exists r', agree (vm_topv vm) r r' /\ Con r' g = true).
Proof.
  intros f vm I W T. cbv zeta. unfold negF. cbn [fst snd].
  destruct (Negate_spec f (Some (vm_topv vm)) W) as (G1 & G2 & G3 & G4 & _).
  cbn [neg_topv] in G2, G4. rewrite Z.max_r in G2, G4 by lia.
  destruct (UpdateTopV vm (TopV (Negate f (Some (vm_topv vm))))) as [b vm'] eqn:E. cbn [snd].
  destruct (UpdateTopV_spec _ _ _ _ I E) as (U1 & U2 & U3 & U4 & U5).
  repeat (split; [assumption|]). split; [|split; assumption].
  destruct b; [rewrite U4 by auto; unfold TopV; lia|]. destruct U5 as [-> U5]; auto. unfold TopV in U5. lia.
Qed.

Section Enc.
Variable m : model.
Variable t : tree.
Variable D : string -> Prop.              (* names declared *)
Variable canon : env -> tval.             (* intended value of every triple *)
Let d := Dim m.
Hypothesis Hdim : (0 < Dim m)%nat.
Hypothesis canonD : forall E w, D w -> forall i x, canon E (w, i, x) = (feat (E w) i =? x).

Definition wholly (vm : varman) (w : string) : Prop :=
  forall i x, in_range (Dim m) i -> valid_feat x -> mapped vm (w, i, x).
Definition known (vm : varman) (w : string) : Prop := mapped vm (w, 0, BOT).
Definition decoded (vm : varman) (tv : tval) : Prop := forall w, D w -> known vm w -> rep (Dim m) tv w (decode (Dim m) tv w).

Definition encodes (vm : varman) (f : CNF) (vm' : varman) (names : list string) (P : env -> Prop) : Prop :=
  vm_inv vm' /\ vm_ext vm vm' /\ cnf_wf f /\ tv f <= vm_topv vm' /\
  (forall w, D w -> known vm' w -> known vm w \/ In w names) /\
  (forall w, In w names -> known vm' w) /\
  ((forall w, D w -> known vm w -> wholly vm w) -> forall w, D w -> known vm' w -> wholly vm' w) /\
  (forall r tv, matches vm' r tv -> decoded vm tv -> Con r f = true ->
     decoded vm' tv /\ (Sem r f = true <-> P (decode (Dim m) tv))) /\
  (forall E r, (forall w, valid_inst (Dim m) (E w)) -> matches vm r (canon E) ->
     exists r', agree (vm_topv vm) r r' /\ matches vm' r' (canon E) /\ Con r' f = true).

Lemma known_ext : forall vm vm' w, vm_ext vm vm' -> known vm w -> known vm' w.
Proof. intros. unfold known in *. eapply mapped_ext; eauto. Qed.
Lemma wholly_ext : forall vm vm' w, vm_ext vm vm' -> wholly vm w -> wholly vm' w.
Proof. intros vm vm' w X H i x Hi Hx. eapply mapped_ext; eauto. Qed.
Lemma mapped_vars : forall vm vm' u, vm_vars vm' = vm_vars vm -> mapped vm' u -> mapped vm u.
Proof. intros vm vm' u E H. unfold mapped in *. congruence. Qed.
Lemma matches_vars : forall vm vm' r tv, vm_vars vm' = vm_vars vm -> matches vm r tv -> matches vm' r tv.
Proof. intros vm vm' r tv E H u n Hu. rewrite E in Hu. auto. Qed.

Lemma encodes_ext : forall vm f vm' names P Q, (forall E, P E <-> Q E) -> encodes vm f vm' names P -> encodes vm f vm' names Q.
Proof.
  intros vm f vm' names P Q H (A1 & A2 & A3 & A4 & A5 & A6 & A7 & A8 & A9).
  repeat (split; [assumption|]). split; [|assumption]. intros r tv M Dc C. destruct (A8 r tv M Dc C) as [B1 B2].
  split; auto. rewrite B2. apply H.
Qed.

Lemma encodes_true : forall vm, vm_inv vm -> encodes vm TrueCNF vm [] (fun _ => True).
Proof.
  intros vm I. split; auto. split; [apply vm_ext_refl|]. split; [apply wf_True|]. split; [simpl; apply I|].
  split; auto. split; [intros w []|]. split; auto. split.
  - intros r tv M Dc _. split; auto. split; auto.
  - intros E r V M. exists r. split; [apply agree_refl|]. split; auto.
Qed.
Lemma encodes_bool : forall vm b (P : env -> Prop), vm_inv vm -> (forall E, b = true <-> P E) ->
  encodes vm (if b then TrueCNF else FalseCNF) vm [] P.
Proof.
  intros vm b P I H. split; auto. split; [apply vm_ext_refl|]. split; [destruct b; [apply wf_True|apply wf_False]|].
  split; [destruct b; simpl; apply I|]. split; auto. split; [intros w []|]. split; auto. split.
  - intros r tv M Dc _. split; auto. rewrite <- H. destruct b; simpl; intuition discriminate.
  - intros E r V M. exists r. split; [apply agree_refl|]. split; auto. destruct b; reflexivity.
Qed.

Lemma encodes_neg : forall vm f vm1 names P, encodes vm f vm1 names P ->
  encodes vm (fst (negF f vm1)) (snd (negF f vm1)) names (fun E => ~ P E).
Proof.
  intros vm f vm1 names P (A1 & A2 & A3 & A4 & A5 & A6 & A7 & A8 & A9).
  destruct (negF_spec f vm1 A1 A3 A4) as (N1 & N2 & N3 & N4 & N5 & N6 & N7).
  destruct (negF f vm1) as [g vm2]. cbn [fst snd] in *.
  split; [exact N1|]. split; [eapply vm_ext_trans; eauto|]. split; [exact N4|]. split; [exact N5|].
  split. { intros w Dw K. apply A5; auto. unfold known in *. eapply mapped_vars; eauto. }
  split. { intros w Hw. eapply known_ext; eauto. }
  split. { intros H w Dw K. eapply wholly_ext; [exact N2|]. apply A7; auto. unfold known in *. eapply mapped_vars; eauto. }
  split.
  - intros r tv M Dc C. destruct (N6 r C) as [Cf Sg]. assert (M1 : matches vm1 r tv) by (eapply matches_ext; eauto).
    destruct (A8 r tv M1 Dc Cf) as [B1 B2]. split.
    + intros w Dw K. apply B1; auto. unfold known in *. eapply mapped_vars; eauto.
    + rewrite Sg, negb_true_iff, <- B2. destruct (Sem r f); intuition discriminate.
  - intros E r V M. destruct (A9 E r V M) as (r1 & G1 & M1 & C1). destruct (N7 r1 C1) as (r2 & G2 & C2).
    exists r2. split; [|split]; auto.
    + eapply agree_trans; [exact G1|]. eapply agree_weaken; [|exact G2]. apply A2.
    + apply (matches_vars vm1); auto. eapply matches_agree; eauto.
Qed.

(* sequencing: the second is encoded after the first *)
Lemma encodes_both : forall vm f1 vm1 n1 P1 f2 vm2 n2 P2,
  encodes vm f1 vm1 n1 P1 -> encodes vm1 f2 vm2 n2 P2 ->
  encodes vm (Conjunction f1 f2) vm2 (n1 ++ n2) (fun E => P1 E /\ P2 E).
Proof.
  intros vm f1 vm1 n1 P1 f2 vm2 n2 P2 (A1 & A2 & A3 & A4 & A5 & A6 & A7 & A8 & A9) (B1 & B2 & B3 & B4 & B5 & B6 & B7 & B8 & B9).
  assert (T12 : tv f1 <= vm_topv vm2) by (destruct B2 as [X _]; lia).
  split; [exact B1|]. split; [eapply vm_ext_trans; eauto|]. split; [now apply wf_Conjunction|].
  split. { destruct (Conjunction_tv f1 f2 A3 B3) as [_ X]. lia. }
  split. { intros w Dw K. destruct (B5 w Dw K) as [K1|K1]; [|right; apply in_or_app; auto].
           destruct (A5 w Dw K1); auto. right; apply in_or_app; auto. }
  split. { intros w Hw. apply in_app_or in Hw as [Hw|Hw]; auto. eapply known_ext; eauto. }
  split; [auto|]. split.
  - intros r tv M Dc C. rewrite Con_Conjunction, andb_true_iff in C. destruct C as [C1 C2].
    destruct (A8 r tv ltac:(eapply matches_ext; eauto) Dc C1) as [X1 X2].
    destruct (B8 r tv M X1 C2) as [Y1 Y2]. split; auto. rewrite Sem_Conjunction, andb_true_iff, X2, Y2. reflexivity.
  - intros E r V M. destruct (A9 E r V M) as (r1 & G1 & M1 & C1). destruct (B9 E r1 V M1) as (r2 & G2 & M2 & C2).
    exists r2. split; [|split]; auto.
    + eapply agree_trans; [exact G1|]. eapply agree_weaken; [|exact G2]. apply A2.
    + rewrite Con_Conjunction, C2, <- (Con_agree (vm_topv vm1) r1 r2 f1), C1; auto.
Qed.

(* the first one's negation, made after the second is encoded *)
Lemma encodes_or : forall vm f1 vm1 n1 P1 f2 vm2 n2 P2,
  encodes vm f1 vm1 n1 P1 -> encodes vm1 f2 vm2 n2 P2 ->
  let g1 := negF f1 vm2 in let g2 := negF f2 (snd g1) in
  let h := negF (Conjunction (fst g1) (fst g2)) (snd g2) in
  encodes vm (fst h) (snd h) (n1 ++ n2) (fun E => P1 E \/ P2 E).
Proof.
  intros vm f1 vm1 n1 P1 f2 vm2 n2 P2 (A1 & A2 & A3 & A4 & A5 & A6 & A7 & A8 & A9) (B1 & B2 & B3 & B4 & B5 & B6 & B7 & B8 & B9).
  cbv zeta. assert (T12 : tv f1 <= vm_topv vm2) by (destruct B2 as [X _]; lia).
  destruct (negF_spec f1 vm2 B1 A3 T12) as (N1 & N2 & N3 & N4 & N5 & N6 & N7).
  destruct (negF f1 vm2) as [g1 vm3]. cbn [fst snd] in *.
  assert (T23 : tv f2 <= vm_topv vm3) by (destruct N2 as [X _]; lia).
  destruct (negF_spec f2 vm3 N1 B3 T23) as (L1 & L2 & L3 & L4 & L5 & L6 & L7).
  destruct (negF f2 vm3) as [g2 vm4]. cbn [fst snd] in *.
  assert (WC : cnf_wf (Conjunction g1 g2)) by now apply wf_Conjunction.
  assert (T4 : tv (Conjunction g1 g2) <= vm_topv vm4) by (destruct (Conjunction_tv g1 g2 N4 L4) as [_ X]; destruct L2 as [Y _]; lia).
  destruct (negF_spec _ vm4 L1 WC T4) as (K1 & K2 & K3 & K4 & K5 & K6 & K7).
  destruct (negF (Conjunction g1 g2) vm4) as [h vm5]. cbn [fst snd] in *.
  assert (EV : vm_vars vm5 = vm_vars vm2) by congruence.
  assert (X25 : vm_ext vm2 vm5) by (eapply vm_ext_trans; [exact N2|]; eapply vm_ext_trans; eauto).
  split; [exact K1|]. split; [eapply vm_ext_trans; [exact A2|]; eapply vm_ext_trans; eauto|]. split; [exact K4|]. split; [exact K5|].
  split. { intros w Dw K. destruct (B5 w Dw) as [Kn|Kn]; [unfold known in *; eapply mapped_vars; eauto| |right; apply in_or_app; auto].
           destruct (A5 w Dw Kn); auto. right; apply in_or_app; auto. }
  split. { intros w Hw. apply (known_ext vm2); auto. apply in_app_or in Hw as [Hw|Hw]; auto. eapply known_ext; eauto. }
  split. { intros H w Dw K. eapply wholly_ext; [exact X25|]. apply B7; auto. unfold known in *. eapply mapped_vars; eauto. }
  split.
  - intros r tv M Dc C. destruct (K6 r C) as [Ch Sh]. rewrite Con_Conjunction, andb_true_iff in Ch. destruct Ch as [C1 C2].
    destruct (N6 r C1) as [Cf1 S1]. destruct (L6 r C2) as [Cf2 S2].
    assert (M2 : matches vm2 r tv) by (eapply matches_ext; eauto).
    destruct (A8 r tv ltac:(eapply matches_ext; eauto) Dc Cf1) as [X1 X2].
    destruct (B8 r tv M2 X1 Cf2) as [Y1 Y2]. split.
    + intros w Dw K. apply Y1; auto. unfold known in *. eapply mapped_vars; eauto.
    + rewrite Sh, Sem_Conjunction, S1, S2, negb_andb, !negb_involutive, orb_true_iff, X2, Y2. reflexivity.
  - intros E r V M. destruct (A9 E r V M) as (r1 & G1 & M1 & C1). destruct (B9 E r1 V M1) as (r2 & G2 & M2 & C2).
    assert (C12 : Con r2 f1 = true) by (rewrite <- (Con_agree (vm_topv vm1) r1 r2 f1); auto).
    destruct (N7 r2 C12) as (r3 & G3 & C3).
    assert (C23 : Con r3 f2 = true) by (rewrite <- (Con_agree (vm_topv vm2) r2 r3 f2); auto).
    destruct (L7 r3 C23) as (r4 & G4 & C4).
    assert (C34 : Con r4 (Conjunction g1 g2) = true).
    { rewrite Con_Conjunction, C4, <- (Con_agree (vm_topv vm3) r3 r4 g1), C3; auto. }
    destruct (K7 r4 C34) as (r5 & G5 & C5).
    assert (G25 : agree (vm_topv vm2) r2 r5).
    { eapply agree_trans; [exact G3|]. eapply agree_trans; [eapply agree_weaken; [|exact G4]; apply N2|].
      eapply agree_weaken; [|exact G5]. destruct N2 as [X _], L2 as [Y _]; lia. }
    exists r5. split; [|split]; auto.
    + eapply agree_trans; [exact G1|]. eapply agree_weaken; [apply A2|].
      eapply agree_trans; [exact G2|]. eapply agree_weaken; [apply B2|exact G25].
    + apply (matches_vars vm2); auto. eapply matches_agree; eauto.
Qed.

Lemma canon_rep : forall E w, D w -> valid_inst (Dim m) (E w) -> rep (Dim m) (canon E) w (E w).
Proof. intros E w H V. split; [exact V|]. intros i Hi x Hx. now apply canonD. Qed.

Lemma encodes_with : forall w vm, vm_inv vm -> D w ->
  encodes vm (fst (withF (Dim m) w vm)) (snd (withF (Dim m) w vm)) [w] (fun _ => True).
Proof.
  intros w vm I Dw. unfold withF. destruct (CNFVarExists vm (w, 0, BOT)) eqn:EX.
  - cbn [fst snd]. apply mapped_exists in EX. destruct (encodes_true vm I) as (A1 & A2 & A3 & A4 & A5 & A6 & A7 & A8 & A9).
    split; auto. split; auto. split; auto. split; auto. split; [intros; auto|]. split; [intros w' [<-|[]]; auto|].
    split; auto.
  - assert (NK : ~ known vm w) by (intros K; apply mapped_exists in K; congruence).
    pose proof (run_emits_spec (withvar_emits (Z.of_nat (Dim m)) w) vm I) as (G & W & T & M).
    destruct (run_emits vm (withvar_emits (Z.of_nat (Dim m)) w)) as [f vm']. cbn [fst snd] in *.
    destruct G as (G1 & G2 & G3 & G4).
    assert (WH : wholly vm' w).
    { intros i x Hi Hx. apply G3. apply withvar_triples. exists i, x. repeat split; auto; apply Hi. }
    assert (KW : known vm' w) by (apply WH; [unfold in_range; lia|unfold valid_feat; auto]).
    assert (KN : forall w', known vm' w' -> known vm w' \/ w' = w).
    { intros w' K. unfold known in K. apply G4 in K as [K|K]; auto. apply withvar_triples in K as (i & x & _ & _ & E). right; congruence. }
    split; [exact G1|]. split; [exact G2|]. split; [exact W|]. split; [exact T|].
    split. { intros w' _ K. apply KN in K as [K| ->]; simpl; auto. }
    split. { intros w' [<-|[]]. exact KW. }
    split. { intros H w' Dw' K. apply KN in K as [K| ->]; auto. eapply wholly_ext; eauto. }
    split.
    + intros r tv Mt Dc C. destruct (M r tv Mt) as [M1 M2]. rewrite M2 in C. rewrite withvar_ok in C. split.
      * intros w' Dw' K. apply KN in K as [K| ->]; auto. now apply decode_exactly_one.
      * rewrite M1, withvar_sems. split; auto.
    + intros E r V Mt. destruct (extend_to_spec vm vm' r (canon E) I G1 G2 Mt) as [X1 X2].
      exists (extend_to vm vm' r (canon E)). split; auto. split; auto. destruct (M _ _ X2) as [_ M2]. rewrite M2.
      apply withvar_ok. apply (rep_exactly_one _ _ _ (E w)). now apply canon_rep.
Qed.

Lemma encodes_atom : forall a es vm, vm_inv vm -> exact (Dim m) t a (AEmit es) ->
  (forall n k, In (n, k) (aux_of a) -> ~ D n /\ forall E i x, canon E (n, i, x) = keyval t E k i x) ->
  (forall w, In w (vars_of a) -> D w /\ known vm w) ->
  encodes vm (fst (run_emits vm es)) (snd (run_emits vm es)) [] (fun E => holds (Dim m) t E a).
Proof.
  intros a es vm I (XS & XC & XT) HA HV.
  pose proof (run_emits_spec es vm I) as (G & W & T & M).
  destruct (run_emits vm es) as [f vm']. cbn [fst snd] in *. destruct G as (G1 & G2 & G3 & G4).
  assert (KN : forall w, D w -> known vm' w -> known vm w).
  { intros w Dw K. unfold known in K. apply G4 in K as [K|K]; auto. apply XT in K. unfold uname in K. cbn [fst] in K.
    destruct K as [K|K]; [now apply HV|]. apply in_map_iff in K as ([n k] & E & K). cbn [fst] in E. subst n. exfalso. now apply (HA _ _ K). }
  split; [exact G1|]. split; [exact G2|]. split; [exact W|]. split; [exact T|].
  split. { intros w Dw K. auto. }
  split. { intros w []. }
  split. { intros H w Dw K. eapply wholly_ext; eauto. }
  split.
  - intros r tv Mt Dc C. destruct (M r tv Mt) as [M1 M2]. split; [intros w Dw K; auto|].
    rewrite M1. apply XS.
    + intros w Hw. destruct (HV w Hw). auto.
    + congruence.
  - intros E r V Mt. destruct (extend_to_spec vm vm' r (canon E) I G1 G2 Mt) as [X1 X2].
    exists (extend_to vm vm' r (canon E)). split; auto. split; auto. destruct (M _ _ X2) as [_ M2]. rewrite M2.
    apply (XC _ E).
    + intros w Hw. apply canon_rep; auto. now apply HV.
    + intros n k H. now apply HA.
Qed.

Theorem encF_encodes : forall p G vm,
  atoms_good m t p -> (forall w, In w (declared p) -> D w) ->
  (forall n k, In (n, k) (auxs p) -> ~ D n /\ forall E i x, canon E (n, i, x) = keyval t E k i x) ->
  lexical G p -> (forall w, In w G -> D w /\ known vm w) -> vm_inv vm ->
  exists f vm', encF m p vm = Ok (f, vm') /\ encodes vm f vm' (declared p) (fun E => evalF (Dim m) t E p).
Proof.
  induction p as [|a|p IH|p IHp q IHq|p IHp q IHq|w p IH]; intros G vm HG HD HA HL HV I; cbn [atoms_good declared auxs lexical encF evalF] in *.
  - exists TrueCNF, vm. split; auto. now apply encodes_true.
  - destruct HG as [H1 H2]. destruct (atom_good m t vm a H1 H2) as (out & E & X). rewrite E. cbn [rbind].
    destruct out as [b|es].
    + exists (if b then TrueCNF else FalseCNF), vm. split; auto. apply encodes_bool; auto.
    + exists (fst (run_emits vm es)), (snd (run_emits vm es)). split; [destruct (run_emits vm es); reflexivity|].
      apply encodes_atom; auto.
  - destruct (IH G vm) as (f & vm1 & E & X); auto. rewrite E. cbn [rbind fst snd].
    exists (fst (negF f vm1)), (snd (negF f vm1)). split; [destruct (negF f vm1); reflexivity|]. now apply encodes_neg.
  - destruct HG as [HG1 HG2], HL as [HL1 HL2].
    destruct (IHp G vm) as (f1 & vm1 & E1 & X1); auto.
    { intros w Hw; apply HD, in_or_app; auto. } { intros n k H; apply HA, in_or_app; auto. }
    rewrite E1. cbn [rbind fst snd]. pose proof X1 as (J1 & J2 & _).
    destruct (IHq G vm1) as (f2 & vm2 & E2 & X2); auto.
    { intros w Hw; apply HD, in_or_app; auto. } { intros n k H; apply HA, in_or_app; auto. }
    { intros w Hw. destruct (HV w Hw). split; auto. eapply known_ext; eauto. }
    rewrite E2. cbn [rbind fst snd]. do 2 eexists. split; [reflexivity|]. eapply encodes_both; eauto.
  - destruct HG as [HG1 HG2], HL as [HL1 HL2].
    destruct (IHp G vm) as (f1 & vm1 & E1 & X1); auto.
    { intros w Hw; apply HD, in_or_app; auto. } { intros n k H; apply HA, in_or_app; auto. }
    rewrite E1. cbn [rbind fst snd]. pose proof X1 as (J1 & J2 & _).
    destruct (IHq G vm1) as (f2 & vm2 & E2 & X2); auto.
    { intros w Hw; apply HD, in_or_app; auto. } { intros n k H; apply HA, in_or_app; auto. }
    { intros w Hw. destruct (HV w Hw). split; auto. eapply known_ext; eauto. }
    rewrite E2. cbn [rbind fst snd]. do 2 eexists. split; [apply f_equal, surjective_pairing|]. eapply encodes_or; eauto.
  - assert (Dw : D w) by (apply HD; simpl; auto).
    pose proof (encodes_with w vm I Dw) as X1. destruct (withF (Dim m) w vm) as [fi vm1] eqn:EW. cbn [fst snd] in *.
    pose proof X1 as (J1 & J2 & _ & _ & _ & J6 & _).
    destruct (IH (w :: G) vm1) as (f & vm2 & E & X2); auto.
    { intros w' Hw; apply HD; simpl; auto. }
    { intros w' [<-|Hw]; [split; auto; apply J6; simpl; auto|]. destruct (HV w' Hw). split; auto. eapply known_ext; eauto. }
    rewrite E. cbn [rbind fst snd]. do 2 eexists. split; [reflexivity|].
    change (w :: declared p) with ([w] ++ declared p).
    eapply encodes_ext; [|eapply encodes_both; eauto]. intros E'; cbv beta; tauto.
Qed.
End Enc.
