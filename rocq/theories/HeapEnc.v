(* Encoding on slices refines encoding on lists. *)
From Verif Require Import GoBase GoLemmas Cnf Query Walk Atoms Logop CnfHeap HeapLemmas HeapOps.
From Coq Require Import Permutation.
Local Open Scope Z_scope.
Local Open Scope list_scope.

Section Enc.
Variable spare : heap -> nat.
Variables bo bi : nat -> nat.
Notation inv := (inv bo bi).
Notation rest := (rest bo bi).

Lemma build_each_spec : forall cls H ss H' LO LI, build_each spare cls H = (ss, H') -> inv H LO LI ->
  inv H' LO (ss ++ LI) /\ map (sread (ints H')) ss = cls /\ rest H H' LO LI.
Proof.
  induction cls as [|cl r IH]; intros H ss H' LO LI E I.
  - injection E as <- <-. split; auto. split; [reflexivity|apply rest_refl].
  - cbn [build_each] in E. destruct (new_ints H cl (spare H)) as [s H1] eqn:E1. destruct (build_each spare r H1) as [ss2 H2] eqn:E2. injection E as <- <-.
    destruct (new_ints_spec bo bi _ _ _ _ _ _ _ E1 I) as (I1 & R1 & _ & X1 & K1). destruct (IH _ _ _ _ _ E2 I1) as (I2 & R2 & X2 & [K2 K2']).
    split; [|split].
    + eapply inv_perm; [exact I2|reflexivity|]. cbn [app]. symmetry. apply Permutation_middle.
    + cbn [map]. rewrite R2, K2', R1; simpl; auto.
    + eapply rest_trans; [split; [exact X1|exact K1]|split; [exact X2|split; [exact K2|exact K2']]|apply incl_refl|]. intros x Hx. simpl. auto.
Qed.
Lemma build_spec : forall cls H s H' LO LI, build spare cls H = (s, H') -> inv H LO LI ->
  inv H' (s :: LO) LI /\ clauses_of H' s = cls /\ rest H H' LO LI.
Proof.
  intros cls H s H' LO LI E I. unfold build in E. destruct (build_each spare cls H) as [ss H1] eqn:E1.
  destruct (build_each_spec _ _ _ _ _ _ E1 I) as (I1 & R1 & K1). destruct (new_outs_spec bo bi _ _ _ _ _ _ _ E I1) as (I2 & _ & R2 & X2 & K2).
  split; [exact I2|]. split; [congruence|]. eapply rest_trans; [exact K1|split; [exact X2|exact K2]|apply incl_refl|]. intros x Hx. apply in_or_app. auto.
Qed.

(* A live CNF and what it reads as. *)
Definition holds_cnf (LO LI : list slice) (f : CNF) (g : hCNF) (H : heap) : Prop := inv H (h_s g :: h_c g :: LO) LI /\ hread H g = f.

Lemma hTrue_holds : forall H LO LI, inv H LO LI -> holds_cnf LO LI TrueCNF hTrue H.
Proof. intros H LO LI I. split; [|reflexivity]. now apply inv_nil, inv_nil. Qed.
Lemma hFalse_holds : forall H LO LI, inv H LO LI -> holds_cnf LO LI FalseCNF hFalse H.
Proof.
  intros H LO LI I. split; [now apply inv_false, inv_nil|]. unfold hread. cbn [hFalse h_tv h_s h_c]. now rewrite (false_clauses _ _ _ _ _ I).
Qed.

Lemma hrun_emit_spec : forall e f vm g H LO LI, holds_cnf LO LI f g H ->
  match run_emit (f, vm) e, hrun_emit spare (g, vm, H) e with
  | (f', vm'), (g', hvm', H') => hvm' = vm' /\ holds_cnf LO LI f' g' H' /\ rest H H' LO LI
  end.
Proof.
  intros e f vm g H LO LI [I R]. destruct e as [l|cls|cls|cls]; cbn [run_emit hrun_emit].
  - split; auto. split; [split; auto|apply rest_refl].
  - destruct (alloc_clauses vm cls) as [cls' vm']. destruct (build spare cls' H) as [s H1] eqn:E.
    destruct (build_spec _ _ _ _ _ _ E I) as (I1 & R1 & X1 & K1). split; auto. split; [split|].
    + cbn [hFromClauses h_s h_c]. eapply inv_perm; [apply inv_nil; eapply inv_forget; eapply inv_forget; eapply inv_perm; [exact I1| |reflexivity]|apply perm_swap|reflexivity].
      rewrite perm_swap. apply perm_skip. apply perm_swap.
    + unfold hread, hFromClauses. cbn [h_tv h_s h_c]. rewrite R1. reflexivity.
    + split; [exact X1|]. eapply keep_incl; [exact K1| |apply incl_refl]. intros x Hx. simpl. auto.
  - destruct (alloc_clauses vm cls) as [cls' vm']. destruct (build spare cls' H) as [s H1] eqn:E. destruct (hAppendSemantics spare g s H1) as [g' H2] eqn:E2.
    destruct (build_spec _ _ _ _ _ _ E I) as (I1 & R1 & X1 & [K1 K1']).
    assert (J : inv H1 (h_s g :: h_c g :: s :: LO) LI) by (eapply inv_perm; [exact I1|rewrite perm_swap; apply perm_skip, perm_swap|reflexivity]).
    destruct (hAppendSemantics_spec spare bo bi _ _ _ _ _ _ _ E2 J) as (I2 & R2 & [X2 [K2 K2']] & _). split; auto. split; [split|]; auto.
    + rewrite R2, R1. f_equal. rewrite <- R. unfold hread. rewrite !K1; simpl; auto.
    + split; [eapply extH_trans; eauto|]. split; [intros t Ht; rewrite K2, K1; simpl; auto|intros i Hi; rewrite K2', K1'; auto; apply in_or_app; auto].
  - destruct (alloc_clauses vm cls) as [cls' vm']. destruct (build spare cls' H) as [s H1] eqn:E. destruct (hAppendConsistency spare g s H1) as [g' H2] eqn:E2.
    destruct (build_spec _ _ _ _ _ _ E I) as (I1 & R1 & X1 & [K1 K1']).
    assert (J : inv H1 (h_s g :: h_c g :: s :: LO) LI) by (eapply inv_perm; [exact I1|rewrite perm_swap; apply perm_skip, perm_swap|reflexivity]).
    destruct (hAppendConsistency_spec spare bo bi _ _ _ _ _ _ _ E2 J) as (I2 & R2 & [X2 [K2 K2']]). split; auto. split; [split|]; auto.
    + rewrite R2, R1. f_equal. rewrite <- R. unfold hread. rewrite !K1; simpl; auto.
    + split; [eapply extH_trans; eauto|]. split; [intros t Ht; rewrite K2, K1; simpl; auto|intros i Hi; rewrite K2', K1'; auto; apply in_or_app; auto].
Qed.
Lemma hrun_emits_spec : forall es vm H LO LI, inv H LO LI ->
  match run_emits vm es, hrun_emits spare vm es H with
  | (f', vm'), (g', hvm', H') => hvm' = vm' /\ holds_cnf LO LI f' g' H' /\ rest H H' LO LI
  end.
Proof.
  intros es vm H LO LI I. unfold run_emits, hrun_emits. pose proof (hTrue_holds H LO LI I) as T. clear I. revert T. generalize TrueCNF, hTrue. revert vm H.
  induction es as [|e es IH]; intros vm H f g T; cbn [fold_left].
  - split; auto. split; auto. apply rest_refl.
  - pose proof (hrun_emit_spec e f vm g H LO LI T) as S. destruct (run_emit (f, vm) e) as [f1 vm1], (hrun_emit spare (g, vm, H) e) as [[g1 hvm1] H1].
    destruct S as (-> & T1 & K1). specialize (IH vm1 H1 f1 g1 T1).
    destruct (fold_left run_emit es (f1, vm1)) as [f2 vm2], (fold_left (hrun_emit spare) es (g1, vm1, H1)) as [[g2 hvm2] H2]. destruct IH as (-> & T2 & K2).
    split; auto. split; auto. eapply rest_trans; eauto; apply incl_refl.
Qed.

(* ---- computations ---- *)

Definition sim {A B} (m : M A) (h : MH B) (c : ctx) (H : heap) (LO LI : list slice) (Q : A -> B -> heap -> Prop) : Prop :=
  match m c, h c H with
  | (r, c'), (rh, ch, H') =>
      ch = c' /\ rest H H' LO LI /\
      match r, rh with
      | Ok a, Ok b => Q a b H'
      | Err e, Err e' => e = e'
      | Panic, Panic | Hang, Hang => True
      | _, _ => False
      end
  end.

Lemma sim_bind : forall A B A' B' (m : M A) (h : MH B) (k : A -> M A') (kh : B -> MH B') c H LO LI Q Q',
  sim m h c H LO LI Q -> (forall a b c' H', Q a b H' -> sim (k a) (kh b) c' H' LO LI Q') -> sim (bind m k) (hbind h kh) c H LO LI Q'.
Proof.
  intros A B A' B' m h k kh c H LO LI Q Q' S K. unfold sim, bind, hbind in *. destruct (m c) as [r c'], (h c H) as [[rh ch] H']. destruct S as (-> & R & S).
  destruct r, rh; try contradiction; auto. specialize (K _ _ c' H' S). destruct (k a c') as [r2 c2], (kh a0 c' H') as [[rh2 ch2] H2].
  destruct K as (-> & R2 & K). split; auto. split; auto. eapply rest_trans; eauto; apply incl_refl.
Qed.
Lemma sim_weaken : forall A B (m : M A) (h : MH B) c H LO LI LO' LI' (Q Q' : A -> B -> heap -> Prop),
  sim m h c H LO' LI' Q -> incl LO LO' -> incl LI LI' -> (forall a b H', rest H H' LO' LI' -> Q a b H' -> Q' a b H') -> sim m h c H LO LI Q'.
Proof.
  intros A B m h c H LO LI LO' LI' Q Q' S I J K. unfold sim in *. destruct (m c) as [r c'], (h c H) as [[rh ch] H']. destruct S as (-> & [X R] & S).
  split; auto. split; [split; [exact X|eapply keep_incl; eauto]|]. destruct r, rh; auto. apply K; auto. split; auto.
Qed.
Lemma sim_hM : forall A (m : M A) c H LO LI (Q : A -> A -> heap -> Prop), (forall a, Q a a H) -> sim m (hM m) c H LO LI Q.
Proof.
  intros A m c H LO LI Q HQ. unfold sim, hM. destruct (m c) as [r c']. split; auto. split; [apply rest_refl|]. destruct r; auto.
Qed.
Lemma sim_fail : forall A B e c H LO LI (Q : A -> B -> heap -> Prop), sim (fail e) (hM (fail e)) c H LO LI Q.
Proof. intros. split; auto. split; [apply rest_refl|reflexivity]. Qed.
Lemma sim_wrap : forall A B (m : M A) (h : MH B) p c H LO LI Q, sim m h c H LO LI Q -> sim (wrap p m) (hwrap p h) c H LO LI Q.
Proof.
  intros A B m h p c H LO LI Q S. unfold sim, wrap, hwrap in *. destruct (m c) as [r c'], (h c H) as [[rh ch] H']. destruct S as (-> & R & S).
  destruct r, rh; try contradiction; auto. split; auto. split; auto. now rewrite S.
Qed.
Lemma sim_defer : forall A B (m : M A) (h : MH B) c H LO LI Q, sim m h c H LO LI Q -> sim (defer_PopScope m) (hdefer_PopScope h) c H LO LI Q.
Proof.
  intros A B m h c H LO LI Q S. unfold sim, defer_PopScope, hdefer_PopScope in *. destruct (m c) as [r c'], (h c H) as [[rh ch] H']. destruct S as (-> & R & S).
  unfold defer_PopScope, lift. destruct r, rh; try contradiction; subst; destruct (PopScope (cScoper c')) as [[pe|] s]; auto.
Qed.

Lemma sim_conj : forall f1 f2 g1 g2 c H LO LI, inv H (h_s g1 :: h_c g1 :: h_s g2 :: h_c g2 :: LO) LI -> hread H g1 = f1 -> hread H g2 = f2 ->
  sim (ret (Conjunction f1 f2)) (hop (hConjunction spare g1 g2)) c H LO LI (holds_cnf LO LI).
Proof.
  intros f1 f2 g1 g2 c H LO LI I R1 R2. unfold sim, ret, hop. destruct (hConjunction spare g1 g2 H) as [g H'] eqn:E.
  destruct (hConjunction_spec spare bo bi _ _ _ _ _ _ _ E I) as (I' & R' & K'). split; auto. split; auto. split; auto. congruence.
Qed.
Lemma sim_negate : forall f g c H LO LI, holds_cnf LO LI f g H -> sim (m_Negate f) (hm_Negate spare g) c H LO LI (holds_cnf LO LI).
Proof.
  intros f g c H LO LI [I R]. unfold sim, m_Negate, hm_Negate, bind, hbind, hop, hM, m_TopV, m_UpdateTopV, ret, hret. cbn [fst snd].
  destruct (hNegate spare g (Some (vm_topv (cVM c))) H) as [g' H'] eqn:E.
  destruct (hNegate_spec spare bo bi _ _ _ _ _ _ _ E I) as (I' & R' & K'). rewrite R in R'. unfold TopV. rewrite <- R'. split; auto. split; auto. split; auto.
Qed.
(* Run a computation beside a live CNF. *)
Lemma sim_beside : forall (m : M CNF) h f g c H LO LI, holds_cnf LO LI f g H ->
  (forall c H LO LI, inv H LO LI -> sim m h c H LO LI (holds_cnf LO LI)) ->
  sim m h c H LO LI (fun f' g' H' => inv H' (h_s g :: h_c g :: h_s g' :: h_c g' :: LO) LI /\ hread H' g = f /\ hread H' g' = f').
Proof.
  intros m h f g c H LO LI [I R] S. eapply sim_weaken; [apply S; exact I| |apply incl_refl|].
  - intros x Hx. simpl. auto.
  - intros f' g' H' [_ [K _]] [I' R']. split; [|split; [|exact R']].
    + eapply inv_perm; [exact I'| |reflexivity]. change (Permutation ([h_s g'; h_c g'] ++ [h_s g; h_c g] ++ LO) ([h_s g; h_c g] ++ [h_s g'; h_c g'] ++ LO)).
      rewrite !app_assoc. apply Permutation_app_tail, Permutation_app_comm.
    + rewrite <- R. unfold hread. rewrite !K; simpl; auto.
Qed.

Lemma sim_atom : forall a c H LO LI, inv H LO LI -> sim (enc_atom a) (henc_atom spare a) c H LO LI (holds_cnf LO LI).
Proof.
  intros a c H LO LI I. unfold sim, enc_atom, henc_atom. destruct (atom_enc c a) as [[b|es]|e| |].
  - split; auto. split; [apply rest_refl|]. destruct b; [now apply hTrue_holds|now apply hFalse_holds].
  - pose proof (hrun_emits_spec es (cVM c) H LO LI I) as S. destruct (run_emits (cVM c) es) as [f vm], (hrun_emits spare (cVM c) es H) as [[g hvm] H']. destruct S as (-> & S1 & S2). auto.
  - split; auto. split; [apply rest_refl|reflexivity].
  - split; auto. split; [apply rest_refl|exact Logic.I].
  - split; auto. split; [apply rest_refl|exact Logic.I].
Qed.
Lemma sim_encodeI : forall v c H LO LI, inv H LO LI -> sim (encodeI v) (hencodeI spare v) c H LO LI (holds_cnf LO LI).
Proof.
  intros v c H LO LI I. unfold encodeI, hencodeI. eapply sim_bind with (Q := fun a b H' => a = b /\ inv H' LO LI).
  - apply sim_hM. auto.
  - clear c H I. intros w w' c H [<- I]. unfold sim. destruct (CNFVarExists (cVM c) (w, 0, BOT)).
    + split; auto. split; [apply rest_refl|now apply hTrue_holds].
    + pose proof (hrun_emits_spec (withvar_emits (Z.of_nat (Dim (cModel c))) w) (cVM c) H LO LI I) as S.
      destruct (run_emits (cVM c) (withvar_emits (Z.of_nat (Dim (cModel c))) w)) as [f vm], (hrun_emits spare (cVM c) (withvar_emits (Z.of_nat (Dim (cModel c))) w) H) as [[g hvm] H'].
      destruct S as (-> & S1 & S2). auto.
Qed.
Lemma sim_loop : forall body hbody LO LI, (forall c H LO LI, inv H LO LI -> sim body hbody c H LO LI (holds_cnf LO LI)) ->
  forall fuel it i acc g c H, holds_cnf LO LI acc g H -> sim (forall_loop fuel body it i acc) (hforall_loop spare fuel hbody it i g) c H LO LI (holds_cnf LO LI).
Proof.
  intros body hbody LO LI SB. induction fuel as [|fuel IH]; intros it i acc g c H A; cbn [forall_loop hforall_loop].
  - split; auto. split; [apply rest_refl|exact Logic.I].
  - eapply sim_bind with (Q := fun a b H' => a = b /\ holds_cnf LO LI acc g H'); [apply sim_hM; auto|].
    clear c H A. intros r r' c H [<- A]. destruct r as [[|] it'].
    + eapply sim_bind with (Q := fun _ _ H' => holds_cnf LO LI acc g H'); [apply sim_hM; auto|].
      clear c H A. intros _ _ c H A. eapply sim_bind; [apply sim_beside; [exact A|exact SB]|].
      clear c H A. intros f' g' c H (I & R1 & R2). pose proof (sim_conj acc f' g g' c H LO LI I R1 R2) as S.
      unfold sim, hbind, hop. unfold sim, ret, hop in S. destruct (hConjunction spare g g' H) as [g2 H2]. destruct S as (_ & K & S).
      pose proof (IH it' (i + 1) (Conjunction acc f') g2 c H2 S) as T. unfold sim in T. destruct (forall_loop fuel body it' (i + 1) (Conjunction acc f') c) as [r c'], (hforall_loop spare fuel hbody it' (i + 1) g2 c H2) as [[rh ch] H3].
      destruct T as (-> & K3 & T). split; auto. split; auto. eapply rest_trans; eauto; apply incl_refl.
    + split; auto. split; [apply rest_refl|exact A].
Qed.

Theorem henc_refines : forall q c H LO LI, inv H LO LI -> sim (enc q) (henc spare q) c H LO LI (holds_cnf LO LI).
Proof.
  induction q as [|a|q IH|q1 IH1 q2 IH2|q1 IH1 q2 IH2|v q IH|k q IH]; intros c H LO LI I; cbn [enc henc].
  - split; auto. split; [apply rest_refl|exact Logic.I].
  - now apply sim_atom.
  - apply sim_wrap. destruct (is_nil q); [apply sim_fail|]. eapply sim_bind; [apply IH; exact I|]. intros f g c' H' A. now apply sim_negate.
  - apply sim_wrap. destruct (is_nil q1); [apply sim_fail|]. destruct (is_nil q2); [apply sim_fail|].
    eapply sim_bind; [apply sim_wrap, IH1; exact I|]. intros f1 g1 c1 H1 A1.
    eapply sim_bind; [apply sim_beside; [exact A1|]; intros; apply sim_wrap; auto|]. intros f2 g2 c2 H2 (I2 & R1 & R2). now apply sim_conj.
  - apply sim_wrap. destruct (is_nil q1); [apply sim_fail|]. destruct (is_nil q2); [apply sim_fail|].
    eapply sim_bind; [apply sim_wrap, IH1; exact I|]. intros f1 g1 c1 H1 A1.
    eapply sim_bind; [apply sim_beside; [exact A1|]; intros; apply sim_wrap; auto|]. intros f2 g2 c2 H2 (I2 & R1 & R2).
    (* negate the first beside the second *)
    eapply sim_bind with (Q := fun f' g' H' => inv H' (h_s g' :: h_c g' :: h_s g2 :: h_c g2 :: LO) LI /\ hread H' g' = f' /\ hread H' g2 = f2).
    { eapply sim_weaken; [apply sim_negate; split; [exact I2|exact R1]| |apply incl_refl|].
      - intros x Hx. simpl. auto.
      - intros f' g' H' [_ [K _]] [I' R']. split; auto. split; auto. rewrite <- R2. unfold hread. rewrite !K; simpl; auto. }
    intros f1' g1' c3 H3 (I3 & R1' & R2').
    eapply sim_bind with (Q := fun f' g' H' => inv H' (h_s g1' :: h_c g1' :: h_s g' :: h_c g' :: LO) LI /\ hread H' g1' = f1' /\ hread H' g' = f').
    { assert (PP : forall a b a' b' : slice, Permutation (a :: b :: a' :: b' :: LO) (a' :: b' :: a :: b :: LO)).
      { intros. change (Permutation ([a; b] ++ [a'; b'] ++ LO) ([a'; b'] ++ [a; b] ++ LO)). rewrite !app_assoc. apply Permutation_app_tail, Permutation_app_comm. }
      eapply sim_weaken with (LO' := h_s g1' :: h_c g1' :: LO); [apply sim_negate; split; [eapply inv_perm; [exact I3|apply PP|reflexivity]|exact R2']| |apply incl_refl|].
      - intros x Hx. simpl. auto.
      - intros f' g' H' [_ [K _]] [I' R']. split; [eapply inv_perm; [exact I'|apply PP|reflexivity]|]. split; auto. rewrite <- R1'. unfold hread. rewrite !K; simpl; auto. }
    intros f2' g2' c4 H4 (I4 & Q1 & Q2). pose proof (sim_conj f1' f2' g1' g2' c4 H4 LO LI I4 Q1 Q2) as S.
    unfold sim, hbind, hop. unfold sim, ret, hop in S. destruct (hConjunction spare g1' g2' H4) as [g5 H5]. destruct S as (_ & K & S).
    pose proof (sim_negate (Conjunction f1' f2') g5 c4 H5 LO LI S) as T. unfold sim in T. destruct (m_Negate (Conjunction f1' f2') c4) as [r c'], (hm_Negate spare g5 c4 H5) as [[rh ch] H6].
    destruct T as (-> & K6 & T). split; auto. split; auto. eapply rest_trans; eauto; apply incl_refl.
  - apply sim_wrap. destruct (is_nil q); [apply sim_fail|].
    eapply sim_bind with (Q := fun _ _ H' => inv H' LO LI); [apply sim_hM; auto|]. intros _ _ c1 H1 I1.
    eapply sim_bind; [apply sim_encodeI; exact I1|]. intros fi gi c2 H2 A2.
    eapply sim_bind; [apply sim_beside; [exact A2|exact IH]|]. intros f g c3 H3 (I3 & R1 & R2). now apply sim_conj.
  - apply sim_wrap. destruct (is_nil q); [apply sim_fail|].
    eapply sim_bind with (Q := fun _ _ H' => inv H' LO LI); [apply sim_hM; auto|]. intros _ _ c1 H1 I1.
    apply sim_defer.
    match goal with |- sim ?m ?h c1 H1 _ _ _ => change (sim (fun c => m c1) (fun c H => h c1 H) c1 H1 LO LI (holds_cnf LO LI)) end.
    cbv beta.
    pose proof (sim_bind _ _ _ _ (lift (newNodeAsValuesIter (Dim (cModel c1)) (Nodes (cModel c1)))) (hM (lift (newNodeAsValuesIter (Dim (cModel c1)) (Nodes (cModel c1)))))
      (fun it => forall_loop (forall_fuel (Nodes (cModel c1))) (enc q) it 0 TrueCNF) (fun it => hforall_loop spare (forall_fuel (Nodes (cModel c1))) (henc spare q) it 0 hTrue)
      c1 H1 LO LI (fun a b H' => a = b /\ inv H' LO LI) (holds_cnf LO LI)) as S.
    apply S; [apply sim_hM; auto|]. intros it it' c2 H2 [<- I2]. apply sim_loop; [exact IH|now apply hTrue_holds].
Qed.
End Enc.
