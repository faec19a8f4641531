(* The CNF of one component, in any context. *)
From Verif Require Import GoBase GoLemmas Cnf Query Walk Atoms Logop Spec Meaning CnfSem QueryLemmas Sym AtomBase AtomMain Form Master Block Sat.
Local Open Scope Z_scope.
Local Open Scope list_scope.

(* A context that calls of the library can lead to. *)
Definition good_ctx (c : ctx) : Prop := vm_inv (cVM c) /\ sc_inv (cScoper c).

(* Under r, the CNF variables that exist for name w spell the instance e. *)
Definition spells (c : ctx) (r : valuation) (w : string) (e : inst) : Prop :=
  valid_inst (Dim (cModel c)) e /\
  forall i x n, in_range (Dim (cModel c)) i -> valid_feat x ->
    vlookup (vm_vars (cVM c)) (w, i, x) = Some n -> r n = (feat e i =? x).

(* No CNF variable exists for name w. *)
Definition unused (c : ctx) (w : string) : Prop := forall i x, CNFVarExists (cVM c) (w, i, x) = false.

(* f, encoded in c leaving c', says P about the instances spelled by the names. *)
Definition says (c c' : ctx) (f : CNF) (names : list string) (P : env -> Prop) : Prop :=
  forall r E, (forall w, In w names -> spells c' r w (E w)) -> Con r f = true -> (Sem r f = true <-> P E).
(* Whatever the names spelled, the consistency clauses can be met by changing
   new variables only. *)
Definition admits (c c' : ctx) (f : CNF) (names : list string) : Prop :=
  forall r E, (forall w, In w names -> spells c r w (E w)) ->
    exists r', agree (vm_topv (cVM c)) r r' /\ (forall w, In w names -> spells c' r' w (E w)) /\ Con r' f = true.

Lemma unused_mapped : forall c w i x, unused c w -> ~ mapped (cVM c) (w, i, x).
Proof. intros c w i x U M. apply mapped_exists in M. rewrite U in M. discriminate. Qed.

Definition over (d : nat) (names : list string) (E : env) (base : tval) : tval := fun u =>
  let '(w, i, x) := u in
  if inb_str w names && ((0 <=? i) && (i <? Z.of_nat d)) && ((x =? BOT) || (x =? ZERO) || (x =? ONE))
  then feat (E w) i =? x else base u.
Lemma over_in : forall d names E base w i x, In w names -> in_range d i -> valid_feat x ->
  over d names E base (w, i, x) = (feat (E w) i =? x).
Proof.
  intros d names E base w i x Hw [H1 H2] Hx. unfold over. apply inb_str_spec in Hw. rewrite Hw.
  apply Z.leb_le in H1. apply Z.ltb_lt in H2. rewrite H1, H2.
  destruct Hx as [ -> |[ -> | -> ]]; reflexivity.
Qed.
Lemma over_out : forall d names E base w i x, ~ In w names -> over d names E base (w, i, x) = base (w, i, x).
Proof.
  intros d names E base w i x Hw. unfold over. destruct (inb_str w names) eqn:EI; auto. apply inb_str_spec in EI. contradiction.
Qed.
Lemma over_cases : forall d names E base w i x, (In w names /\ in_range d i /\ valid_feat x) \/ over d names E base (w, i, x) = base (w, i, x).
Proof.
  intros. unfold over. destruct (inb_str w names) eqn:E1; auto. destruct (0 <=? i) eqn:E2; auto. destruct (i <? Z.of_nat d) eqn:E3; auto.
  simpl andb. destruct ((x =? BOT) || (x =? ZERO) || (x =? ONE)) eqn:E4; auto. left.
  apply inb_str_spec in E1. apply Z.leb_le in E2. apply Z.ltb_lt in E3. split; auto. split; [split; auto|].
  apply orb_true_iff in E4 as [E4|E4]; [apply orb_true_iff in E4 as [E4|E4]|]; apply Z.eqb_eq in E4; unfold valid_feat; auto.
Qed.

Lemma spells_rep : forall d vm names E r s m base, Dim m = d ->
  (forall w, In w names -> spells (mkCtx s vm m) r w (E w)) ->
  matches vm r base ->
  reps d (over d names E base) E names /\ matches vm r (over d names E base).
Proof.
  intros d vm names E r s m base <- H M. split.
  - intros w Hw. split; [apply (H w Hw)|]. intros i Hi x Hx. now apply over_in.
  - intros [[w i] x] n Hn. destruct (over_cases (Dim m) names E base w i x) as [(A & B & C)| ->].
    + rewrite over_in by auto. destruct (H w A) as [_ S]. apply (S i x n B C Hn).
    + now apply M.
Qed.

Lemma rep_spells : forall s vm m r tv w e, rep (Dim m) tv w e -> matches vm r tv -> spells (mkCtx s vm m) r w e.
Proof.
  intros s vm m r tv w e [V H] M. split; [exact V|]. intros i x n Hi Hx Hn. cbn [cVM cModel] in *. rewrite (M _ _ Hn). auto.
Qed.

Lemma enc_atom_cases : forall s vm m a out, atom_enc (mkCtx s vm m) a = Ok out ->
  exists f vm', enc (QAtom a) (mkCtx s vm m) = (Ok f, mkCtx s vm' m) /\
    match out with
    | ABool b => f = (if b then TrueCNF else FalseCNF) /\ vm' = vm
    | AEmit es => run_emits vm es = (f, vm')
    end.
Proof.
  intros s vm m a out H. cbn [enc]. unfold enc_atom. rewrite H. destruct out as [b|es].
  - exists (if b then TrueCNF else FalseCNF), vm. split; auto.
  - cbn [cVM]. destruct (run_emits vm es) as [f vm'] eqn:E. exists f, vm'. split; auto.
Qed.

(* the names of a component's auxiliary variables are its own *)
Definition own_names (t : tree) (c : ctx) (a : atom) : Prop :=
  (forall n k, In (n, k) (aux_of (resolve (cScoper c) a)) -> unused c n /\ ~ In n (vars_of (resolve (cScoper c) a))) /\
  (forall n k k', In (n, k) (aux_of (resolve (cScoper c) a)) -> In (n, k') (aux_of (resolve (cScoper c) a)) -> same_key t k k').

(* what the encoder emits says P *)
Definition encodes_as (t : tree) (c : ctx) (a : atom) (P : env -> Prop) : Prop :=
  exists out, atom_enc c a = Ok out /\ exact_as (Dim (cModel c)) t (resolve (cScoper c) a) P out.

Theorem atom_cnf_as : forall c t a P, good_ctx c -> encodes_as t c a P ->
  exists f c', enc (QAtom a) c = (Ok f, c') /\
    good_ctx c' /\ cModel c' = cModel c /\ cScoper c' = cScoper c /\ vm_ext (cVM c) (cVM c') /\
    cnf_wf f /\ tv f <= vm_topv (cVM c') /\
    says c c' f (vars_of (resolve (cScoper c) a)) P /\
    (own_names t c a -> admits c c' f (vars_of (resolve (cScoper c) a))).
Proof.
  intros [s vm m] t a P [I J] (out & EO & X). cbn [cScoper cVM cModel] in *.
  destruct (enc_atom_cases s vm m a out EO) as (f & vm' & EE & EC). exists f, (mkCtx s vm' m). split; auto.
  unfold good_ctx. cbn [cScoper cVM cModel]. set (d := Dim m) in *. set (a' := resolve s a) in *.
  destruct out as [b|es].
  - destruct EC as [ -> -> ]. split; auto. split; auto. split; auto. split; [apply vm_ext_refl|].
    split; [destruct b; [apply wf_True|apply wf_False]|]. split; [destruct b; simpl; apply I|]. split.
    + intros r E _ _. cbv beta. rewrite <- (X E). destruct b; simpl; intuition discriminate.
    + intros _ r E H. exists r. split; [apply agree_refl|]. split; auto. destruct b; reflexivity.
  - pose proof (run_emits_spec es vm I) as (G & W & T & M). rewrite EC in *. cbn [fst snd] in *.
    destruct G as (G1 & G2 & G3 & G4). destruct X as (XS & XC & XT).
    split; auto. split; auto. split; auto. split; auto. split; auto. split; auto. split.
    + intros r E H C. cbv beta.
      destruct (spells_rep d vm' (vars_of a') E r s m (read vm' r) eq_refl H (read_matches vm' r)) as [R1 R2].
      destruct (M r _ R2) as [M1 M2]. rewrite M1. apply XS; auto. congruence.
    + intros [O1 O2] r E H.
      set (base := fun u : varRep => let '(n, i, x) := u in match aux_find (aux_of a') n with Some k => keyval t E k i x | None => read vm r u end).
      assert (MB : matches vm r base).
      { intros [[n i] x] k Hk. unfold base. destruct (aux_find (aux_of a') n) as [ky|] eqn:EA.
        - apply aux_find_some in EA. destruct (O1 n ky EA) as [U _]. exfalso.
          apply (unused_mapped _ _ i x U). unfold mapped. cbn [cVM]. congruence.
        - unfold read. now rewrite Hk. }
      destruct (spells_rep d vm (vars_of a') E r s m base eq_refl H MB) as [R1 R2].
      destruct (extend_to_spec vm vm' r _ I G1 G2 R2) as [X1 X2].
      exists (extend_to vm vm' r (over d (vars_of a') E base)). split; auto. split.
      * intros w Hw. apply (rep_spells _ _ _ _ _ _ _ (R1 w Hw) X2).
      * destruct (M _ _ X2) as [_ M2]. rewrite M2. apply (XC _ E); auto.
        intros n k Hk i x. destruct (O1 n k Hk) as [_ Nn]. rewrite over_out by auto. unfold base.
        destruct (aux_find (aux_of a') n) as [k'|] eqn:EA.
        -- apply aux_find_some in EA. apply (O2 n); auto.
        -- exfalso. eapply aux_find_none; eauto. apply in_map_iff. exists (n, k). auto.
Qed.

Theorem atom_cnf : forall c t a, good_ctx c ->
  atom_ok (Dim (cModel c)) (resolve (cScoper c) a) -> model_ok (cModel c) t (resolve (cScoper c) a) ->
  exists f c', enc (QAtom a) c = (Ok f, c') /\
    good_ctx c' /\ cModel c' = cModel c /\ cScoper c' = cScoper c /\ vm_ext (cVM c) (cVM c') /\
    cnf_wf f /\ tv f <= vm_topv (cVM c') /\
    says c c' f (vars_of (resolve (cScoper c) a)) (fun E => holds (Dim (cModel c)) t E (resolve (cScoper c) a)) /\
    (own_names t c a -> admits c c' f (vars_of (resolve (cScoper c) a))).
Proof.
  intros [s vm m] t a G H1 H2. apply atom_cnf_as; [exact G|]. apply (atom_exact s vm m t a (proj2 G) H1 H2).
Qed.

(* Not of a component *)
Lemma not_cnf : forall q c f c1, good_ctx c -> is_nil q = false -> enc q c = (Ok f, c1) -> good_ctx c1 ->
  cnf_wf f -> tv f <= vm_topv (cVM c1) ->
  exists g c', enc (QNot q) c = (Ok g, c') /\
    good_ctx c' /\ cModel c' = cModel c1 /\ cScoper c' = cScoper c1 /\ vm_ext (cVM c1) (cVM c') /\
    vm_vars (cVM c') = vm_vars (cVM c1) /\ cnf_wf g /\ tv g <= vm_topv (cVM c') /\
    (forall r, Con r g = true -> Con r f = true /\ Sem r g = negb (Sem r f)) /\
    (forall r, Con r f = true -> exists r', agree (vm_topv (cVM c1)) r r' /\ Con r' g = true).
Proof.
  intros q c f [s1 vm1 m1] G N E [I J] W T. cbn [cVM cScoper cModel] in *.
  destruct (negF_spec f vm1 I W T) as (N1 & N2 & N3 & N4 & N5 & N6 & N7).
  exists (fst (negF f vm1)), (mkCtx s1 (snd (negF f vm1)) m1). split.
  - cbn [enc]. rewrite N. apply wrap_ok. rewrite (bind_ok _ _ _ _ _ _ _ E). apply neg_m.
  - unfold good_ctx. cbn [cVM cScoper cModel]. auto 12.
Qed.

Lemma spells_vars : forall c c' r w e, cModel c' = cModel c -> vm_vars (cVM c') = vm_vars (cVM c) -> spells c' r w e -> spells c r w e.
Proof. intros c c' r w e E1 E2 [V H]. rewrite E1 in *. split; [exact V|]. intros i x n Hi Hx Hn. apply (H i x n); auto. now rewrite E2. Qed.

Theorem not_atom_cnf_as : forall c t a P, good_ctx c -> encodes_as t c a P ->
  exists g c', enc (QNot (QAtom a)) c = (Ok g, c') /\
    good_ctx c' /\ cModel c' = cModel c /\ cScoper c' = cScoper c /\ vm_ext (cVM c) (cVM c') /\
    says c c' g (vars_of (resolve (cScoper c) a)) (fun E => ~ P E) /\
    (own_names t c a -> admits c c' g (vars_of (resolve (cScoper c) a))).
Proof.
  intros c t a P G H. destruct (atom_cnf_as c t a P G H) as (f & c1 & E & G1 & M1 & S1 & X1 & W & T & A & B).
  destruct (not_cnf (QAtom a) c f c1 G eq_refl E G1 W T) as (g & c' & E2 & G2 & M2 & S2 & X2 & V2 & W2 & T2 & N1 & N2).
  exists g, c'. split; auto. split; auto. split; [congruence|]. split; [congruence|]. split; [eapply vm_ext_trans; eauto|]. split.
  - intros r E' HE C. destruct (N1 r C) as [C1 Sg]. rewrite Sg, negb_true_iff. cbv beta.
    rewrite <- (A r E'); auto.
    + destruct (Sem r f); intuition discriminate.
    + intros w Hw. eapply spells_vars; eauto.
  - intros O r E' HE. destruct (B O r E' HE) as (r1 & R1 & R2 & R3). destruct (N2 r1 R3) as (r2 & Q1 & Q2).
    exists r2. split; [eapply agree_trans; [exact R1|]; eapply agree_weaken; [|exact Q1]; apply X1|]. split; auto.
    intros w Hw. destruct (R2 w Hw) as [V S]. unfold spells. rewrite M2. split; [exact V|].
    intros i x n Hi Hx Hn. rewrite V2 in Hn. rewrite <- (S i x n Hi Hx Hn). symmetry. apply Q1. destruct G1 as [(_ & Y & _) _]. now apply Y in Hn.
Qed.

Theorem not_atom_cnf : forall c t a, good_ctx c ->
  atom_ok (Dim (cModel c)) (resolve (cScoper c) a) -> model_ok (cModel c) t (resolve (cScoper c) a) ->
  exists g c', enc (QNot (QAtom a)) c = (Ok g, c') /\
    good_ctx c' /\ cModel c' = cModel c /\ cScoper c' = cScoper c /\ vm_ext (cVM c) (cVM c') /\
    says c c' g (vars_of (resolve (cScoper c) a)) (fun E => ~ holds (Dim (cModel c)) t E (resolve (cScoper c) a)) /\
    (own_names t c a -> admits c c' g (vars_of (resolve (cScoper c) a))).
Proof.
  intros [s vm m] t a G H1 H2. apply (not_atom_cnf_as (mkCtx s vm m) t a (fun E => holds (Dim m) t E (resolve s a))); [exact G|].
  apply (atom_exact s vm m t a (proj2 G) H1 H2).
Qed.
