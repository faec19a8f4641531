(* Property C59: any VarManager that keeps the interface's promises gives the same
   formula as the library's, up to the names of the variables.  Property C60: the
   formula of a query depends on what a context was used for before only through
   the names of the variables. *)
From Verif Require Import GoBase GoLemmas Cnf Query Walk Atoms Logop Managers CnfSem QueryLemmas AtomCnf.
Local Open Scope string_scope.
Local Open Scope Z_scope.
Local Open Scope list_scope.

(* ---- specification ---- *)

(* The promises of query/varmanager.go:3-23.  [num w t] is the number that triple t
   has in state w; [inv] are the states that the manager can be in. *)
Record lawful {V} (X : manager V) (num : V -> varRep -> option Z) (inv : V -> Prop) : Prop := mkLawful
  { l_top : forall w, inv w -> 0 <= v_Top X w;
    (* numbers are positive, at most TopV, and no two triples have the same *)
    l_range : forall w t n, inv w -> num w t = Some n -> 1 <= n <= v_Top X w;
    l_inj : forall w t u n, inv w -> num w t = Some n -> num w u = Some n -> t = u;
    (* CNFVar gives a triple its number, a new one above TopV, and touches no other *)
    l_var : forall w t n w', inv w -> v_Var X t w = (n, w') ->
      inv w' /\ v_Top X w <= v_Top X w' /\ num w' t = Some n /\ (forall u, u <> t -> num w' u = num w u) /\
      (forall m, num w t = Some m -> n = m) /\ (num w t = None -> v_Top X w < n);
    l_exists : forall w t, inv w -> (v_Exists X t w = true <-> num w t <> None);
    (* a raise of TopV takes effect *)
    l_update : forall w k, inv w -> v_Top X w <= k ->
      inv (v_Update X k w) /\ k <= v_Top X (v_Update X k w) /\ (forall t, num (v_Update X k w) t = num w t) }.

(* Renaming of the variables of a formula. *)
Definition rename_lit (rho : Z -> Z) (l : Z) : Z := if 0 <? l then rho l else - rho (- l).
Definition renamed (rho : Z -> Z) (f g : CNF) : Prop :=
  sClauses g = map (map (rename_lit rho)) (sClauses f) /\ cClauses g = map (map (rename_lit rho)) (cClauses f).
(* Variables go to variables, different ones to different ones. *)
Definition renaming (rho : Z -> Z) : Prop :=
  (forall x, 1 <= x -> 1 <= rho x) /\ (forall x y, 1 <= x -> 1 <= y -> rho x = rho y -> x = y).
(* The same outcome: formulas related by R, equal errors. *)
Definition same_end {A B} (R : A -> B -> Prop) (r1 : res A) (r2 : res B) : Prop :=
  match r1, r2 with
  | Ok a, Ok b => R a b
  | Err e, Err e' => e = e'
  | Panic, Panic => True
  | Hang, Hang => True
  | _, _ => False
  end.

(* Variables that a query declares. *)
Fixpoint quantified (q : query) : list string :=
  match q with
  | QNil | QAtom _ => []
  | QNot q => quantified q
  | QAnd q1 q2 | QOr q1 q2 => quantified q1 ++ quantified q2
  | QWith v q => v :: quantified q
  | QAll _ q => quantified q
  end.

(* ---- the library's manager keeps the promises ---- *)

Lemma base_lawful : lawful base_manager (fun vm t => vlookup (vm_vars vm) t) vm_inv.
Proof.
  constructor.
  - intros w [H _]. exact H.
  - intros w t n [_ [H _]]. apply H.
  - intros w t u n [_ [_ H]]. apply H.
  - intros w t n w' I E. cbn [v_Var v_Top base_manager] in *. destruct (CNFVar_spec w t n w' I E) as (I' & (X1 & X2 & X3) & N & O).
    repeat (split; [assumption|]). split.
    + intros m Hm. apply X2 in Hm. congruence.
    + intros Hm. eapply X3; eauto.
  - intros w t I. cbn [v_Exists base_manager]. unfold CNFVarExists. destruct (vlookup (vm_vars w) t); split; congruence.
  - intros w k I H. cbn [v_Update v_Top base_manager] in *. destruct (UpdateTopV w k) as [b vm'] eqn:E. cbn [snd].
    destruct (UpdateTopV_spec w k b vm' I E) as (I' & _ & N & T & F). split; [exact I'|]. split.
    + destruct b; [rewrite (T eq_refl); lia|]. destruct (F eq_refl). lia.
    + intros t. now rewrite N.
Qed.

(* ---- genc with the library's manager is enc ---- *)

Definition down (c : ctx) : gctx varman := mkGctx (cScoper c) (cVM c) (cModel c).
Definition up (c : gctx varman) : ctx := mkCtx (gScoper c) (gVM c) (gModel c).
Definition mirror {A} (m : M A) (g : GM varman A) : Prop := forall c, g (down c) = (fst (m c), down (snd (m c))).

Lemma mirror_run : forall A (m : M A) g, mirror m g -> forall c r c', m c = (r, c') -> g (down c) = (r, down c').
Proof. intros A m g H c r c' E. rewrite H, E. reflexivity. Qed.

Lemma mirror_bind : forall A B (m : M A) g (k : A -> M B) h, mirror m g -> (forall a, mirror (k a) (h a)) -> mirror (bind m k) (gbind g h).
Proof.
  intros A B m g k h H K c. unfold bind, gbind. rewrite (H c). destruct (m c) as [[a|e| |] c']; cbn [fst snd]; try reflexivity. apply K.
Qed.

Lemma mirror_wrap : forall A p (m : M A) g, mirror m g -> mirror (wrap p m) (gwrap p g).
Proof. intros A p m g H c. unfold wrap, gwrap. rewrite (H c). destruct (m c) as [[a|e| |] c']; reflexivity. Qed.

Lemma mirror_lift : forall A (r : res A), mirror (lift r) (glift r).
Proof. intros A r c. reflexivity. Qed.
Lemma mirror_ret : forall A (a : A), mirror (ret a) (gret a).
Proof. intros A a c. reflexivity. Qed.

Lemma galloc_vars_base : forall l vm, galloc_vars base_manager vm l = alloc_vars vm l.
Proof. induction l as [|t l IH]; intros vm; [reflexivity|]. cbn. apply IH. Qed.
Lemma galloc_clause_base : forall cl vm, galloc_clause base_manager vm cl = alloc_clause vm cl.
Proof.
  induction cl as [|[s t] cl IH]; intros vm; [reflexivity|]. cbn [galloc_clause alloc_clause v_Var base_manager].
  destruct (CNFVar vm t) as [n vm']. rewrite IH. reflexivity.
Qed.
Lemma galloc_clauses_base : forall cls vm, galloc_clauses base_manager vm cls = alloc_clauses vm cls.
Proof.
  induction cls as [|cl cls IH]; intros vm; [reflexivity|]. cbn [galloc_clauses alloc_clauses]. rewrite galloc_clause_base.
  destruct (alloc_clause vm cl) as [n vm']. rewrite IH. reflexivity.
Qed.
Lemma grun_emits_base : forall es vm, grun_emits base_manager vm es = run_emits vm es.
Proof.
  intros es vm. unfold grun_emits, run_emits. generalize (TrueCNF, vm). induction es as [|e es IH]; intros [f w]; [reflexivity|]. cbn [fold_left].
  assert (E : grun_emit base_manager (f, w) e = run_emit (f, w) e).
  { destruct e as [l|cls|cls|cls]; cbn [grun_emit run_emit]; rewrite ?galloc_vars_base, ?galloc_clauses_base; reflexivity. }
  rewrite E. apply IH.
Qed.

Lemma mirror_atom : forall a, mirror (enc_atom a) (genc_atom base_manager a).
Proof.
  intros a [s vm m]. unfold enc_atom, genc_atom, down. cbn [gScoper gVM gModel cScoper cVM cModel].
  rewrite (atom_enc_vm s (mkVarman 0 []) vm m a). destruct (atom_enc (mkCtx s vm m) a) as [[b|es]|e| |]; try reflexivity.
  rewrite grun_emits_base. destruct (run_emits vm es) as [f w]. reflexivity.
Qed.

Lemma mirror_I : forall v, mirror (encodeI v) (gencodeI base_manager v).
Proof.
  intros v. apply mirror_bind.
  - intros c. reflexivity.
  - intros w [s vm m]. unfold down. cbn [gScoper gVM gModel cScoper cVM cModel v_Exists base_manager].
    destruct (CNFVarExists vm (w, 0, BOT)); [reflexivity|]. rewrite grun_emits_base.
    destruct (run_emits vm (withvar_emits (Z.of_nat (Dim m)) w)) as [f w']. reflexivity.
Qed.

Lemma mirror_Negate : forall f, mirror (m_Negate f) (g_Negate base_manager f).
Proof. intros f. apply mirror_bind; [intros c; reflexivity|]. intros k. apply mirror_bind; [intros c; reflexivity|]. intros _. apply mirror_ret. Qed.

Lemma mirror_loop : forall body gbody, mirror body gbody -> forall n it i acc,
  mirror (forall_loop n body it i acc) (gforall_loop n gbody it i acc).
Proof.
  intros body gbody H. induction n as [|n IH]; intros it i acc; [apply mirror_lift|]. cbn [forall_loop gforall_loop].
  apply mirror_bind; [apply mirror_lift|]. intros [more it']. destruct more; [|apply mirror_ret].
  apply mirror_bind.
  - intros c. unfold m_SetScope, g_SetScope, down. cbn [gScoper cScoper]. destruct (SetScope (cScoper c) i (it_t it')) as [e s]. reflexivity.
  - intros _. apply mirror_bind; [exact H|]. intros f. apply IH.
Qed.

Lemma mirror_defer : forall A (m : M A) g, mirror m g -> mirror (defer_PopScope m) (gdefer_PopScope g).
Proof.
  intros A m g H c. unfold defer_PopScope, gdefer_PopScope. rewrite (H c). destruct (m c) as [r c']. cbn [fst snd].
  change (gScoper (down c')) with (cScoper c'). destruct (PopScope (cScoper c')) as [perr s]. destruct r, perr; reflexivity.
Qed.

Theorem genc_base : forall q, mirror (enc q) (genc base_manager q).
Proof.
  induction q as [|a|q IH|q1 IH1 q2 IH2|q1 IH1 q2 IH2|v q IH|k q IH]; cbn [enc genc].
  - apply mirror_lift.
  - apply mirror_atom.
  - apply mirror_wrap. destruct (is_nil q); [intros c; reflexivity|]. apply mirror_bind; [exact IH|apply mirror_Negate].
  - apply mirror_wrap. destruct (is_nil q1); [intros c; reflexivity|]. destruct (is_nil q2); [intros c; reflexivity|].
    apply mirror_bind; [apply mirror_wrap, IH1|]. intros f1. apply mirror_bind; [apply mirror_wrap, IH2|]. intros f2. apply mirror_ret.
  - apply mirror_wrap. destruct (is_nil q1); [intros c; reflexivity|]. destruct (is_nil q2); [intros c; reflexivity|].
    apply mirror_bind; [apply mirror_wrap, IH1|]. intros f1. apply mirror_bind; [apply mirror_wrap, IH2|]. intros f2.
    apply mirror_bind; [apply mirror_Negate|]. intros g1. apply mirror_bind; [apply mirror_Negate|]. intros g2. apply mirror_Negate.
  - apply mirror_wrap. destruct (is_nil q); [intros c; reflexivity|]. apply mirror_bind; [intros c; reflexivity|]. intros _.
    apply mirror_bind; [apply mirror_I|]. intros fi. apply mirror_bind; [exact IH|]. intros f. apply mirror_ret.
  - apply mirror_wrap. destruct (is_nil q); [intros c; reflexivity|]. apply mirror_bind; [intros c; reflexivity|]. intros _.
    apply mirror_defer. intros c.
    exact (mirror_bind _ _ _ _ _ _ (mirror_lift _ _) (fun it => mirror_loop _ _ IH (forall_fuel (Nodes (cModel c))) it 0 TrueCNF) c).
Qed.

(* ---- two managers side by side ---- *)

Section Sim.
Variables (V1 V2 : Type) (X1 : manager V1) (X2 : manager V2).
Variables (num1 : V1 -> varRep -> option Z) (num2 : V2 -> varRep -> option Z) (inv1 : V1 -> Prop) (inv2 : V2 -> Prop).
Hypotheses (L1 : lawful X1 num1 inv1) (L2 : lawful X2 num2 inv2).

Definition pairs := list (Z * Z).

(* Which variables of the two sides are the same. *)
Record tied (P : pairs) (w1 : V1) (w2 : V2) : Prop := mkTied
  { t_i1 : inv1 w1;
    t_i2 : inv2 w2;
    t_bound : forall a b, In (a, b) P -> 1 <= a <= v_Top X1 w1 /\ 1 <= b <= v_Top X2 w2;
    t_fun : forall a b b', In (a, b) P -> In (a, b') P -> b = b';
    t_inj : forall a a' b, In (a, b) P -> In (a', b) P -> a = a';
    t_both : forall t a b, num1 w1 t = Some a -> num2 w2 t = Some b -> In (a, b) P;
    t_left : forall t a b, In (a, b) P -> num1 w1 t = Some a -> num2 w2 t = Some b;
    t_right : forall t a b, In (a, b) P -> num2 w2 t = Some b -> num1 w1 t = Some a }.

Definition alike (w1 : V1) (w2 : V2) (t : varRep) : Prop := num1 w1 t <> None <-> num2 w2 t <> None.

Record later (P : pairs) (w1 : V1) (w2 : V2) (P' : pairs) (w1' : V1) (w2' : V2) : Prop := mkLater
  { la_tied : tied P' w1' w2';
    la_incl : incl P P';
    la_top1 : v_Top X1 w1 <= v_Top X1 w1';
    la_top2 : v_Top X2 w2 <= v_Top X2 w2';
    la_alike : forall t, alike w1 w2 t -> alike w1' w2' t }.

Lemma later_refl : forall P w1 w2, tied P w1 w2 -> later P w1 w2 P w1 w2.
Proof. intros P w1 w2 T. constructor; auto; try lia. apply incl_refl. Qed.
Lemma later_trans : forall P w1 w2 P' w1' w2' P'' w1'' w2'',
  later P w1 w2 P' w1' w2' -> later P' w1' w2' P'' w1'' w2'' -> later P w1 w2 P'' w1'' w2''.
Proof. intros * [A1 A2 A3 A4 A5] [B1 B2 B3 B4 B5]. constructor; auto; try lia. eapply incl_tran; eauto. Qed.

Lemma var_step : forall P w1 w2 t a w1' b w2', tied P w1 w2 -> v_Var X1 t w1 = (a, w1') -> v_Var X2 t w2 = (b, w2') ->
  later P w1 w2 ((a, b) :: P) w1' w2'.
Proof.
  intros P w1 w2 t a w1' b w2' T E1 E2. pose proof T as [I1 I2 TB TF TJ T1 T2 T3].
  destruct (l_var _ _ _ L1 _ _ _ _ I1 E1) as (I1' & M1 & N1 & O1 & K1 & F1).
  destruct (l_var _ _ _ L2 _ _ _ _ I2 E2) as (I2' & M2 & N2 & O2 & K2 & F2).
  pose proof (l_range _ _ _ L1 _ _ _ I1' N1) as R1. pose proof (l_range _ _ _ L2 _ _ _ I2' N2) as R2.
  (* an old pair with a or b is (a, b) *)
  assert (HA : forall b', In (a, b') P -> b' = b).
  { intros b' H. destruct (num1 w1 t) as [m|] eqn:Em.
    - rewrite (K1 _ eq_refl) in *. pose proof (T2 t _ _ H Em) as Q. symmetry. now apply K2.
    - specialize (F1 eq_refl). destruct (TB _ _ H). lia. }
  assert (HB : forall a', In (a', b) P -> a' = a).
  { intros a' H. destruct (num2 w2 t) as [m|] eqn:Em.
    - rewrite (K2 _ eq_refl) in *. pose proof (T3 t _ _ H Em) as Q. symmetry. now apply K1.
    - specialize (F2 eq_refl). destruct (TB _ _ H). lia. }
  assert (D : forall u, u = t \/ u <> t).
  { intros u. destruct (varRep_eqb_spec u t); auto. }
  constructor; auto.
  - constructor; auto.
    + intros x y [H|H]; [injection H as <- <-; auto|]. destruct (TB _ _ H). lia.
    + intros x y y' [H|H] [H'|H']; try (injection H as <- <-); try (injection H' as <-); subst; first [reflexivity | apply HA; assumption | symmetry; apply HA; assumption | eapply TF; eassumption].
    + intros x x' y [H|H] [H'|H']; try (injection H as <- <-); try (injection H' as <-); subst; first [reflexivity | apply HB; assumption | symmetry; apply HB; assumption | eapply TJ; eassumption].
    + intros u x y H H'. destruct (D u) as [->|Hu].
      * rewrite N1 in H. rewrite N2 in H'. injection H as <-. injection H' as <-. now left.
      * right. rewrite O1 in H by auto. rewrite O2 in H' by auto. eauto.
    + intros u x y [H|H] Hn.
      * injection H as <- <-. rewrite (l_inj _ _ _ L1 _ _ _ _ I1' Hn N1). exact N2.
      * destruct (D u) as [->|Hu].
        -- rewrite N1 in Hn. injection Hn as <-. rewrite (HA _ H). exact N2.
        -- rewrite O1 in Hn by auto. rewrite O2 by auto. eauto.
    + intros u x y [H|H] Hn.
      * injection H as <- <-. rewrite (l_inj _ _ _ L2 _ _ _ _ I2' Hn N2). exact N1.
      * destruct (D u) as [->|Hu].
        -- rewrite N2 in Hn. injection Hn as <-. rewrite (HB _ H). exact N1.
        -- rewrite O2 in Hn by auto. rewrite O1 by auto. eauto.
  - intros x Hx. now right.
  - intros u Hu. unfold alike in *. destruct (D u) as [->|N]; [rewrite N1, N2; split; congruence|]. rewrite O1, O2 by auto. exact Hu.
Qed.

Definition lrel (P : pairs) (l l' : Z) : Prop := exists a b, In (a, b) P /\ (l = a /\ l' = b \/ l = - a /\ l' = - b).
Definition crel (P : pairs) : list clause -> list clause -> Prop := Forall2 (Forall2 (lrel P)).

Lemma lrel_mono : forall P P' l l', incl P P' -> lrel P l l' -> lrel P' l l'.
Proof. intros P P' l l' H (a & b & Hi & R). exists a, b. auto. Qed.
Lemma Forall2_mono : forall A B (R R' : A -> B -> Prop) l l', (forall a b, R a b -> R' a b) -> Forall2 R l l' -> Forall2 R' l l'.
Proof. intros A B R R' l l' H. induction 1; constructor; auto. Qed.
Lemma kl_mono : forall P P' l l', incl P P' -> Forall2 (lrel P) l l' -> Forall2 (lrel P') l l'.
Proof. intros P P' l l' H. apply Forall2_mono. intros. eapply lrel_mono; eauto. Qed.
Lemma crel_mono : forall P P' l l', incl P P' -> crel P l l' -> crel P' l l'.
Proof. intros P P' l l' H. apply Forall2_mono. intros. eapply kl_mono; eauto. Qed.

Lemma clause_step : forall cl P w1 w2, tied P w1 w2 ->
  match galloc_clause X1 w1 cl, galloc_clause X2 w2 cl with
  | (k1, w1'), (k2, w2') => exists P', later P w1 w2 P' w1' w2' /\ Forall2 (lrel P') k1 k2
  end.
Proof.
  induction cl as [|[s t] cl IH]; intros P w1 w2 T; cbn [galloc_clause].
  - exists P. split; [now apply later_refl|constructor].
  - destruct (v_Var X1 t w1) as [a w1'] eqn:E1, (v_Var X2 t w2) as [b w2'] eqn:E2.
    pose proof (var_step _ _ _ _ _ _ _ _ T E1 E2) as S1. pose proof (IH _ _ _ (la_tied _ _ _ _ _ _ S1)) as S2.
    destruct (galloc_clause X1 w1' cl) as [k1 v1], (galloc_clause X2 w2' cl) as [k2 v2]. destruct S2 as (P' & S2 & K).
    exists P'. split; [eapply later_trans; eauto|]. constructor; auto.
    exists a, b. split; [apply (la_incl _ _ _ _ _ _ S2); now left|]. destruct s; auto.
Qed.

Lemma clauses_step : forall cls P w1 w2, tied P w1 w2 ->
  match galloc_clauses X1 w1 cls, galloc_clauses X2 w2 cls with
  | (k1, w1'), (k2, w2') => exists P', later P w1 w2 P' w1' w2' /\ crel P' k1 k2
  end.
Proof.
  induction cls as [|cl cls IH]; intros P w1 w2 T; cbn [galloc_clauses].
  - exists P. split; [now apply later_refl|constructor].
  - pose proof (clause_step cl _ _ _ T) as S1. destruct (galloc_clause X1 w1 cl) as [a w1'], (galloc_clause X2 w2 cl) as [b w2'].
    destruct S1 as (P1 & S1 & K1). pose proof (IH _ _ _ (la_tied _ _ _ _ _ _ S1)) as S2.
    destruct (galloc_clauses X1 w1' cls) as [k1 v1], (galloc_clauses X2 w2' cls) as [k2 v2]. destruct S2 as (P' & S2 & K).
    exists P'. split; [eapply later_trans; eauto|]. constructor; auto. eapply kl_mono; [|exact K1]. apply S2.
Qed.

Lemma vars_step : forall l P w1 w2, tied P w1 w2 -> exists P', later P w1 w2 P' (galloc_vars X1 w1 l) (galloc_vars X2 w2 l).
Proof.
  induction l as [|t l IH]; intros P w1 w2 T; cbn [galloc_vars].
  - exists P. now apply later_refl.
  - destruct (v_Var X1 t w1) as [a w1'] eqn:E1, (v_Var X2 t w2) as [b w2'] eqn:E2. cbn [snd].
    pose proof (var_step _ _ _ _ _ _ _ _ T E1 E2) as S1. destruct (IH _ _ _ (la_tied _ _ _ _ _ _ S1)) as (P' & S2).
    exists P'. eapply later_trans; eauto.
Qed.

(* Formulas that are the same up to the pairs. *)
Definition frel (P : pairs) (w1 : V1) (w2 : V2) (f g : CNF) : Prop :=
  crel P (sClauses f) (sClauses g) /\ crel P (cClauses f) (cClauses g) /\ tv f <= v_Top X1 w1 /\ tv g <= v_Top X2 w2.

Lemma frel_later : forall P w1 w2 P' w1' w2' f g, later P w1 w2 P' w1' w2' -> frel P w1 w2 f g -> frel P' w1' w2' f g.
Proof.
  intros * [A1 A2 A3 A4 A5] (F1 & F2 & F3 & F4). split; [eapply crel_mono; eauto|]. split; [eapply crel_mono; eauto|]. lia.
Qed.

Lemma crel_bound : forall P w1 w2 k k', tied P w1 w2 -> crel P k k' ->
  clauses_bound (v_Top X1 w1) k /\ clauses_bound (v_Top X2 w2) k'.
Proof.
  intros P w1 w2 k k' T H. induction H as [|c c' k k' Hc _ [IH IH']]; [split; constructor|].
  assert (Q : clause_bound (v_Top X1 w1) c /\ clause_bound (v_Top X2 w2) c').
  { induction Hc as [|l l' c c' (a & b & Hi & R) _ [J J']]; [split; constructor|].
    destruct (t_bound _ _ _ T _ _ Hi). split; constructor; auto; destruct R as [[-> ->]|[-> ->]]; lia. }
  destruct Q. split; constructor; auto.
Qed.

Lemma crel_maxVar : forall P w1 w2 k k', tied P w1 w2 -> crel P k k' -> maxVar k <= v_Top X1 w1 /\ maxVar k' <= v_Top X2 w2.
Proof.
  intros P w1 w2 k k' T H. destruct (crel_bound _ _ _ _ _ T H). pose proof T as [I1 I2 _ _ _ _ _ _].
  split; apply maxVar_least; auto; [eapply l_top; eauto|eapply l_top; eauto].
Qed.

Lemma crel_app : forall P a b a' b', crel P a a' -> crel P b b' -> crel P (a ++ b) (a' ++ b').
Proof. intros. now apply Forall2_app. Qed.

Lemma frel_true : forall P w1 w2, tied P w1 w2 -> frel P w1 w2 TrueCNF TrueCNF.
Proof.
  intros P w1 w2 T. pose proof T as [I1 I2 _ _ _ _ _ _].
  split; [constructor|]. split; [constructor|]. cbn. split; [eapply l_top; eauto|eapply l_top; eauto].
Qed.
Lemma frel_false : forall P w1 w2, tied P w1 w2 -> frel P w1 w2 FalseCNF FalseCNF.
Proof.
  intros P w1 w2 T. pose proof T as [I1 I2 _ _ _ _ _ _].
  split; [repeat constructor|]. split; [constructor|]. cbn. split; [eapply l_top; eauto|eapply l_top; eauto].
Qed.

Lemma frel_sem : forall P w1 w2 f g k k', tied P w1 w2 -> frel P w1 w2 f g -> crel P k k' ->
  frel P w1 w2 (AppendSemantics f k) (AppendSemantics g k').
Proof.
  intros P w1 w2 f g k k' T (F1 & F2 & F3 & F4) K. destruct (crel_maxVar _ _ _ _ _ T K).
  split; [now apply crel_app|]. split; [exact F2|]. cbn. rewrite !maxInt_spec. lia.
Qed.
Lemma frel_con : forall P w1 w2 f g k k', tied P w1 w2 -> frel P w1 w2 f g -> crel P k k' ->
  frel P w1 w2 (AppendConsistency f k) (AppendConsistency g k').
Proof.
  intros P w1 w2 f g k k' T (F1 & F2 & F3 & F4) K. destruct (crel_maxVar _ _ _ _ _ T K).
  split; [exact F1|]. split; [now apply crel_app|]. cbn. rewrite !maxInt_spec. lia.
Qed.

Lemma frel_conj : forall P w1 w2 f g f' g', tied P w1 w2 -> frel P w1 w2 f g -> frel P w1 w2 f' g' ->
  frel P w1 w2 (Conjunction f f') (Conjunction g g').
Proof.
  intros P w1 w2 f g f' g' T F F'. pose proof F' as (K1 & K2 & _).
  unfold Conjunction. apply frel_con; auto. pose proof (frel_sem _ _ _ _ _ _ _ T F K1) as (A & _ & C & D).
  split; [exact A|]. split; [apply F|]. auto.
Qed.

Lemma emits_step : forall es P w1 w2 f g, tied P w1 w2 -> frel P w1 w2 f g ->
  match fold_left (grun_emit X1) es (f, w1), fold_left (grun_emit X2) es (g, w2) with
  | (f', w1'), (g', w2') => exists P', later P w1 w2 P' w1' w2' /\ frel P' w1' w2' f' g'
  end.
Proof.
  induction es as [|e es IH]; intros P w1 w2 f g T F; cbn [fold_left].
  - exists P. split; [now apply later_refl|exact F].
  - assert (S1 : match grun_emit X1 (f, w1) e, grun_emit X2 (g, w2) e with
                 | (f', w1'), (g', w2') => exists P', later P w1 w2 P' w1' w2' /\ frel P' w1' w2' f' g' end).
    { destruct e as [l|cls|cls|cls]; cbn [grun_emit].
      - destruct (vars_step l _ _ _ T) as (P' & S1). exists P'. split; auto. eapply frel_later; eauto.
      - pose proof (clauses_step cls _ _ _ T) as S1. destruct (galloc_clauses X1 w1 cls) as [k1 v1], (galloc_clauses X2 w2 cls) as [k2 v2].
        destruct S1 as (P' & S1 & K). exists P'. split; auto. pose proof (la_tied _ _ _ _ _ _ S1) as T'.
        destruct (crel_maxVar _ _ _ _ _ T' K). split; [exact K|]. split; [constructor|]. auto.
      - pose proof (clauses_step cls _ _ _ T) as S1. destruct (galloc_clauses X1 w1 cls) as [k1 v1], (galloc_clauses X2 w2 cls) as [k2 v2].
        destruct S1 as (P' & S1 & K). exists P'. split; auto. apply frel_sem; auto; [apply S1|eapply frel_later; eauto].
      - pose proof (clauses_step cls _ _ _ T) as S1. destruct (galloc_clauses X1 w1 cls) as [k1 v1], (galloc_clauses X2 w2 cls) as [k2 v2].
        destruct S1 as (P' & S1 & K). exists P'. split; auto. apply frel_con; auto; [apply S1|eapply frel_later; eauto]. }
    destruct (grun_emit X1 (f, w1) e) as [f1 v1], (grun_emit X2 (g, w2) e) as [g1 v2]. destruct S1 as (P1 & S1 & F1).
    pose proof (IH _ _ _ _ _ (la_tied _ _ _ _ _ _ S1) F1) as S2.
    destruct (fold_left (grun_emit X1) es (f1, v1)) as [f2 u1], (fold_left (grun_emit X2) es (g1, v2)) as [g2 u2].
    destruct S2 as (P2 & S2 & F2). exists P2. split; auto. eapply later_trans; eauto.
Qed.

(* ---- negation ---- *)

(* The pairs of new variables above k and k'. *)
Fixpoint extra (k k' : Z) (d : nat) : pairs :=
  match d with O => [] | S d => (k + 1, k' + 1) :: extra (k + 1) (k' + 1) d end.
Lemma in_extra : forall d k k' a b, In (a, b) (extra k k' d) -> exists i, 1 <= i <= Z.of_nat d /\ a = k + i /\ b = k' + i.
Proof.
  induction d as [|d IH]; intros k k' a b H; [destruct H|]. cbn [extra] in H. destruct H as [H|H].
  - injection H as <- <-. exists 1. lia.
  - destruct (IH _ _ _ _ H) as (i & Hi & -> & ->). exists (i + 1). lia.
Qed.
Lemma extra_last : forall d k k', incl ((k + Z.of_nat d + 1, k' + Z.of_nat d + 1) :: extra k k' d) (extra k k' (S d)).
Proof.
  induction d as [|d IH]; intros k k' x Hx.
  - cbn in *. now rewrite !Z.add_0_r in Hx.
  - cbn [extra] in *. destruct Hx as [<-|[<-|Hx]].
    + right. apply (IH (k + 1) (k' + 1)). left. f_equal; lia.
    + now left.
    + right. apply (IH (k + 1) (k' + 1)). now right.
Qed.

Lemma lrel_opp : forall P l l', lrel P l l' -> lrel P (- l) (- l').
Proof. intros P l l' (a & b & Hi & [[-> ->]|[-> ->]]); exists a, b; split; auto. left. lia. Qed.

Lemma loop_rel : forall scls scls' P k k' cls cls' e e', crel P scls scls' -> crel P cls cls' -> Forall2 (lrel P) e e' ->
  exists d, match tseytin_loop scls k cls e, tseytin_loop scls' k' cls' e' with
  | inl n, inl n' => n = k + Z.of_nat d /\ n' = k' + Z.of_nat d
  | inr (n, c, x), inr (n', c', x') =>
      n = k + Z.of_nat d /\ n' = k' + Z.of_nat d /\ crel (extra k k' d ++ P) c c' /\ Forall2 (lrel (extra k k' d ++ P)) x x'
  | _, _ => False
  end.
Proof.
  intros scls scls' P k k' cls cls' e e' H. revert k k' cls cls' e e'. revert P H.
  enough (G : forall Q, crel Q scls scls' -> forall P k k' cls cls' e e', incl Q P -> crel P cls cls' -> Forall2 (lrel P) e e' ->
    exists d, match tseytin_loop scls k cls e, tseytin_loop scls' k' cls' e' with
    | inl n, inl n' => n = k + Z.of_nat d /\ n' = k' + Z.of_nat d
    | inr (n, c, x), inr (n', c', x') =>
      n = k + Z.of_nat d /\ n' = k' + Z.of_nat d /\ crel (extra k k' d ++ P) c c' /\ Forall2 (lrel (extra k k' d ++ P)) x x'
    | _, _ => False
    end).
  { intros P H. intros. eapply G; eauto. apply incl_refl. }
  intros Q H. induction H as [|c c' scls scls' Hc _ IH]; intros P k k' cls cls' e e' QP C E.
  - exists O. cbn. rewrite !Z.add_0_r. auto.
  - destruct Hc as [|l l' c c' Hl Hc].
    + exists O. cbn. lia.
    + destruct Hc as [|m m' c c' Hm Hc].
      * cbn [tseytin_loop]. apply IH; auto. apply Forall2_app; auto. constructor; [|constructor]. apply lrel_opp. eapply lrel_mono; eauto.
      * cbn [tseytin_loop].
        assert (NEW : lrel ((k + 1, k' + 1) :: P) (k + 1) (k' + 1)) by (exists (k + 1), (k' + 1); split; [now left|auto]).
        assert (CL : Forall2 (lrel ((k + 1, k' + 1) :: P)) (l :: m :: c) (l' :: m' :: c')).
        { apply (kl_mono Q); [intros x Hx; right; auto|]. repeat (constructor; auto). }
        edestruct (IH ((k + 1, k' + 1) :: P) (k + 1) (k' + 1)
          ((cls ++ map (fun lit => [- lit; - (k + 1)]) (l :: m :: c)) ++ [(l :: m :: c) ++ [k + 1]])
          ((cls' ++ map (fun lit => [- lit; - (k' + 1)]) (l' :: m' :: c')) ++ [(l' :: m' :: c') ++ [k' + 1]])
          (e ++ [k + 1]) (e' ++ [k' + 1])) as (d & D).
        -- intros x Hx. right. auto.
        -- apply crel_app; [apply crel_app|].
           ++ eapply crel_mono; [|exact C]. intros x Hx. now right.
           ++ clear -CL NEW. induction CL as [|x x' y y' Hx _ J]; cbn [map]; constructor; auto.
              constructor; [now apply lrel_opp|]. constructor; [now apply lrel_opp|]. constructor.
           ++ constructor; [|constructor]. apply Forall2_app; auto.
        -- apply Forall2_app; [|repeat constructor; auto]. eapply kl_mono; [|exact E]. intros x Hx. now right.
        -- exists (S d).
           destruct (tseytin_loop scls (k + 1) _ _) as [n|[[n x] y]], (tseytin_loop scls' (k' + 1) _ _) as [n'|[[n' x'] y']]; try contradiction.
           ++ lia.
           ++ destruct D as (-> & -> & D1 & D2). split; [lia|]. split; [lia|].
              assert (I : incl (extra (k + 1) (k' + 1) d ++ (k + 1, k' + 1) :: P) (extra k k' (S d) ++ P)).
              { cbn [extra]. intros z Hz. apply in_app_or in Hz as [Hz|[<-|Hz]]; [right; apply in_or_app; auto|now left|right; apply in_or_app; auto]. }
              split; [eapply crel_mono; eauto|eapply kl_mono; eauto].
Qed.

Lemma same_length : forall A B (R : A -> B -> Prop) l l', Forall2 R l l' -> length l = length l'.
Proof. intros A B R l l'. induction 1; cbn; congruence. Qed.

Lemma empty_rel : forall P f g, crel P (sClauses f) (sClauses g) -> hasEmptySemanticClause f = hasEmptySemanticClause g.
Proof.
  intros P f g. unfold hasEmptySemanticClause. induction 1 as [|c c' k k' Hc _ IH]; auto. cbn [existsb]. rewrite IH. destruct Hc; reflexivity.
Qed.

Lemma negate_rel : forall P f g k k', crel P (sClauses f) (sClauses g) -> crel P (cClauses f) (cClauses g) -> tv f <= k -> tv g <= k' ->
  exists d, tv (Negate f (Some k)) = k + Z.of_nat d /\ tv (Negate g (Some k')) = k' + Z.of_nat d /\
    crel (extra k k' d ++ P) (sClauses (Negate f (Some k))) (sClauses (Negate g (Some k'))) /\
    crel (extra k k' d ++ P) (cClauses (Negate f (Some k))) (cClauses (Negate g (Some k'))).
Proof.
  intros P [tf fs fc] [tg gs gc] k k' HS HC Hf Hg. cbn [tv sClauses cClauses] in *. unfold Negate. cbn [tv sClauses cClauses].
  rewrite !maxInt_spec. rewrite (Z.max_r tf k), (Z.max_r tg k') by lia.
  rewrite (empty_rel P (mkCNF tf fs fc) (mkCNF tg gs gc) HS).
  destruct fs as [|c fs], gs as [|c' gs]; try (now inversion HS).
  - exists O. cbn [AppendSemantics tv sClauses cClauses extra app]. rewrite !Z.add_0_r.
    split; [reflexivity|]. split; [reflexivity|]. split; [repeat constructor|exact HC].
  - destruct (hasEmptySemanticClause _).
    + exists O. cbn. rewrite !Z.add_0_r. split; [reflexivity|]. split; [reflexivity|]. split; [constructor|exact HC].
    + remember (c :: fs) as sc. remember (c' :: gs) as sc'. clear Heqsc Heqsc'. unfold tseytinNegation. cbn [sClauses cClauses].
      destruct (loop_rel sc sc' P k k' [] [] [] [] HS (Forall2_nil _) (Forall2_nil _)) as (d & D).
      destruct (tseytin_loop sc k [] []) as [n|[[n x] y]], (tseytin_loop sc' k' [] []) as [n'|[[n' x'] y']]; try contradiction.
      * exists d. destruct D as [-> ->]. cbn. repeat (split; [reflexivity|]). split; [constructor|]. eapply crel_mono; [|exact HC]. apply incl_appr, incl_refl.
      * destruct D as (-> & -> & D1 & D2). rewrite (same_length _ _ _ _ _ D2).
        assert (HC' : crel (extra k k' d ++ P) fc gc) by (eapply crel_mono; [|exact HC]; apply incl_appr, incl_refl).
        destruct (length y' =? 1)%nat.
        -- exists d. cbn [tv sClauses cClauses]. split; [reflexivity|]. split; [reflexivity|]. split; [repeat constructor; auto|].
           apply crel_app; auto.
        -- exists (S d). unfold addNegationIFFClauses. cbn [tv sClauses cClauses]. split; [lia|]. split; [lia|].
           assert (I : incl (extra k k' d ++ P) (extra k k' (S d) ++ P)).
           { intros z Hz. apply in_app_or in Hz as [Hz|Hz]; apply in_or_app; auto. left. apply extra_last. now right. }
           assert (NEW : lrel (extra k k' (S d) ++ P) (k + Z.of_nat d + 1) (k' + Z.of_nat d + 1)).
           { eexists _, _. split; [|left; split; reflexivity]. apply in_or_app. left. apply extra_last. now left. }
           split; [repeat constructor; auto|]. pose proof (kl_mono _ _ _ _ I D2) as D2'. pose proof (crel_mono _ _ _ _ I D1) as D1'. pose proof (crel_mono _ _ _ _ I HC') as HC2.
           apply crel_app; [apply crel_app|].
           ++ now apply crel_app.
           ++ clear -D2' NEW. induction D2' as [|u u' v v' Hu _ J]; cbn [map]; constructor; auto.
              constructor; [now apply lrel_opp|]. constructor; [exact NEW|constructor].
           ++ constructor; [|constructor]. apply Forall2_app; auto. constructor; [now apply lrel_opp|constructor].
Qed.

Lemma extra_tied : forall P w1 w2 w1' w2' d, tied P w1 w2 -> inv1 w1' -> inv2 w2' ->
  (forall t, num1 w1' t = num1 w1 t) -> (forall t, num2 w2' t = num2 w2 t) ->
  v_Top X1 w1 + Z.of_nat d <= v_Top X1 w1' -> v_Top X2 w2 + Z.of_nat d <= v_Top X2 w2' ->
  later P w1 w2 (extra (v_Top X1 w1) (v_Top X2 w2) d ++ P) w1' w2'.
Proof.
  intros P w1 w2 w1' w2' d T I1' I2' N1 N2 H1 H2. pose proof T as [I1 I2 TB TF TJ T1 T2 T3].
  pose proof (l_top _ _ _ L1 _ I1). pose proof (l_top _ _ _ L2 _ I2).
  constructor; try lia.
  - constructor; auto.
    + intros a b Hi. apply in_app_or in Hi as [Hi|Hi]; [apply in_extra in Hi as (i & Hi & -> & ->); lia|]. destruct (TB _ _ Hi). lia.
    + intros a b b' Hi Hi'. apply in_app_or in Hi as [Hi|Hi]; apply in_app_or in Hi' as [Hi'|Hi'].
      * apply in_extra in Hi as (i & Hi & -> & ->). apply in_extra in Hi' as (i' & Hi' & E & ->). lia.
      * apply in_extra in Hi as (i & Hi & -> & ->). destruct (TB _ _ Hi'). lia.
      * apply in_extra in Hi' as (i & Hi' & -> & ->). destruct (TB _ _ Hi). lia.
      * eauto.
    + intros a a' b Hi Hi'. apply in_app_or in Hi as [Hi|Hi]; apply in_app_or in Hi' as [Hi'|Hi'].
      * apply in_extra in Hi as (i & Hi & -> & ->). apply in_extra in Hi' as (i' & Hi' & -> & E). lia.
      * apply in_extra in Hi as (i & Hi & -> & ->). destruct (TB _ _ Hi'). lia.
      * apply in_extra in Hi' as (i & Hi' & -> & ->). destruct (TB _ _ Hi). lia.
      * eauto.
    + intros t a b. rewrite N1, N2. intros. apply in_or_app. eauto.
    + intros t a b Hi. rewrite N1, N2. intros Hn. apply in_app_or in Hi as [Hi|Hi]; [|eauto].
      apply in_extra in Hi as (i & Hi & -> & ->). pose proof (l_range _ _ _ L1 _ _ _ I1 Hn). lia.
    + intros t a b Hi. rewrite N1, N2. intros Hn. apply in_app_or in Hi as [Hi|Hi]; [|eauto].
      apply in_extra in Hi as (i & Hi & -> & ->). pose proof (l_range _ _ _ L2 _ _ _ I2 Hn). lia.
  - apply incl_appr, incl_refl.
  - intros t. unfold alike. now rewrite N1, N2.
Qed.

(* ---- computations ---- *)

Variable A : varRep -> Prop.

Record matched (P : pairs) (c1 : gctx V1) (c2 : gctx V2) : Prop := mkMatched
  { m_tied : tied P (gVM c1) (gVM c2);
    m_scoper : gScoper c1 = gScoper c2;
    m_model : gModel c1 = gModel c2;
    m_alike : forall t, A t -> alike (gVM c1) (gVM c2) t }.

Definition sim {B1 B2} (P : pairs) (c1 : gctx V1) (c2 : gctx V2) (m1 : GM V1 B1) (m2 : GM V2 B2) (R : pairs -> V1 -> V2 -> B1 -> B2 -> Prop) : Prop :=
  match m1 c1, m2 c2 with
  | (r1, c1'), (r2, c2') =>
      exists P', later P (gVM c1) (gVM c2) P' (gVM c1') (gVM c2') /\ matched P' c1' c2' /\ same_end (R P' (gVM c1') (gVM c2')) r1 r2
  end.

Lemma sim_bind : forall B1 B2 D1 D2 P c1 c2 (m1 : GM V1 B1) (m2 : GM V2 B2) R (k1 : B1 -> GM V1 D1) (k2 : B2 -> GM V2 D2) R',
  sim P c1 c2 m1 m2 R ->
  (forall P' c1' c2' b1 b2, later P (gVM c1) (gVM c2) P' (gVM c1') (gVM c2') -> matched P' c1' c2' -> R P' (gVM c1') (gVM c2') b1 b2 ->
     sim P' c1' c2' (k1 b1) (k2 b2) R') ->
  sim P c1 c2 (gbind m1 k1) (gbind m2 k2) R'.
Proof.
  intros * S K. unfold sim, gbind in *. destruct (m1 c1) as [[b1|e| |] c1'], (m2 c2) as [[b2|e'| |] c2']; destruct S as (P' & LA & MA & E); cbn [same_end] in E; try contradiction.
  - specialize (K P' c1' c2' b1 b2 LA MA E). destruct (k1 b1 c1') as [r1 c1''], (k2 b2 c2') as [r2 c2'']. destruct K as (P'' & LA' & MA' & E').
    exists P''. split; [eapply later_trans; eauto|]. auto.
  - exists P'. auto.
  - exists P'. auto.
  - exists P'. auto.
Qed.

Lemma sim_wrap : forall B1 B2 P c1 c2 p (m1 : GM V1 B1) (m2 : GM V2 B2) R, sim P c1 c2 m1 m2 R -> sim P c1 c2 (gwrap p m1) (gwrap p m2) R.
Proof.
  intros * S. unfold sim, gwrap in *. destruct (m1 c1) as [[b1|e| |] c1'], (m2 c2) as [[b2|e'| |] c2']; destruct S as (P' & LA & MA & E); cbn [same_end] in E; try contradiction; exists P'; auto.
  subst e'. split; [exact LA|]. split; [exact MA|reflexivity].
Qed.

Lemma sim_ret : forall B1 B2 P c1 c2 (b1 : B1) (b2 : B2) (R : pairs -> V1 -> V2 -> B1 -> B2 -> Prop), matched P c1 c2 ->
  R P (gVM c1) (gVM c2) b1 b2 -> sim P c1 c2 (gret b1) (gret b2) R.
Proof. intros * MA H. exists P. split; [apply later_refl, MA|]. auto. Qed.

Lemma sim_lift : forall B P c1 c2 (r : res B), matched P c1 c2 -> sim P c1 c2 (glift r) (glift r) (fun _ _ _ a b => a = b).
Proof. intros * MA. exists P. split; [apply later_refl, MA|]. split; auto. destruct r; reflexivity. Qed.

Lemma sim_fail : forall B1 B2 P c1 c2 e (R : pairs -> V1 -> V2 -> B1 -> B2 -> Prop), matched P c1 c2 -> sim P c1 c2 (gfail e) (gfail e) R.
Proof. intros * MA. exists P. split; [apply later_refl, MA|]. split; auto. reflexivity. Qed.

Lemma sim_scoper : forall P c1 c2 (h : scoper -> scoper), matched P c1 c2 ->
  sim P c1 c2 (fun c => (Ok tt, gset_scoper c (h (gScoper c)))) (fun c => (Ok tt, gset_scoper c (h (gScoper c)))) (fun _ _ _ _ _ => True).
Proof.
  intros * [T E1 E2 AL]. exists P. split; [apply later_refl, T|]. split; [|exact Logic.I]. constructor; auto. cbn. now rewrite E1.
Qed.

Lemma sim_negate : forall P c1 c2 f g, matched P c1 c2 -> frel P (gVM c1) (gVM c2) f g -> sim P c1 c2 (g_Negate X1 f) (g_Negate X2 g) frel.
Proof.
  intros P [s w1 m] [s' w2 m'] f g [T E1 E2 AL] (F1 & F2 & F3 & F4). cbn [gScoper gVM gModel] in *. subst s' m'.
  destruct (negate_rel P f g _ _ F1 F2 F3 F4) as (d & D1 & D2 & D3 & D4). pose proof T as [I1 I2 _ _ _ _ _ _].
  unfold sim, g_Negate, gbind, g_TopV, g_UpdateTopV, gret. cbn [gVM gset_vm gScoper gModel]. unfold TopV. rewrite D1, D2.
  destruct (l_update _ _ _ L1 w1 (v_Top X1 w1 + Z.of_nat d) I1 ltac:(lia)) as (J1 & U1 & N1).
  destruct (l_update _ _ _ L2 w2 (v_Top X2 w2 + Z.of_nat d) I2 ltac:(lia)) as (J2 & U2 & N2).
  pose proof (extra_tied P w1 w2 _ _ d T J1 J2 N1 N2 U1 U2) as LA.
  eexists. split; [exact LA|]. split.
  - constructor; cbn; auto; [apply LA|]. intros t Ht. apply LA. auto.
  - cbn [same_end]. split; [exact D3|]. split; [exact D4|]. rewrite D1, D2. lia.
Qed.

Lemma sim_emits : forall P c1 c2 es, matched P c1 c2 ->
  sim P c1 c2 (fun c => let (f, w) := grun_emits X1 (gVM c) es in (Ok f, gset_vm c w)) (fun c => let (f, w) := grun_emits X2 (gVM c) es in (Ok f, gset_vm c w)) frel.
Proof.
  intros P [s w1 m] [s' w2 m'] es [T E1 E2 AL]. cbn [gScoper gVM gModel] in *. subst s' m'. unfold sim. cbn [gVM].
  pose proof (emits_step es P w1 w2 _ _ T (frel_true _ _ _ T)) as S1. fold (grun_emits X1 w1 es) in S1. fold (grun_emits X2 w2 es) in S1.
  destruct (grun_emits X1 w1 es) as [f v1], (grun_emits X2 w2 es) as [g v2]. destruct S1 as (P' & LA & F).
  exists P'. split; [exact LA|]. split; [|exact F]. constructor; cbn; auto; [apply LA|]. intros t Ht. apply LA. auto.
Qed.

Lemma sim_atom : forall P c1 c2 a, matched P c1 c2 -> sim P c1 c2 (genc_atom X1 a) (genc_atom X2 a) frel.
Proof.
  intros P c1 c2 a MA. pose proof MA as [T E1 E2 AL]. unfold sim, genc_atom. rewrite <- E1, <- E2.
  destruct (atom_enc (mkCtx (gScoper c1) (mkVarman 0 []) (gModel c1)) a) as [[b|es]|e| |].
  - exists P. split; [now apply later_refl|]. split; auto. destruct b; [now apply frel_true|now apply frel_false].
  - exact (sim_emits P c1 c2 es MA).
  - exists P. split; [now apply later_refl|]. split; auto. reflexivity.
  - exists P. split; [now apply later_refl|]. split; auto. exact Logic.I.
  - exists P. split; [now apply later_refl|]. split; auto. exact Logic.I.
Qed.

Lemma sim_I : forall P c1 c2 v, matched P c1 c2 -> (forall s w, ScopeVar s v = Ok w -> A (w, 0, BOT)) ->
  sim P c1 c2 (gencodeI X1 v) (gencodeI X2 v) frel.
Proof.
  intros P c1 c2 v MA HA. apply (sim_bind _ _ _ _ _ _ _ _ _ (fun _ _ _ a b => a = b /\ A (a, 0, BOT))).
  - unfold sim, g_ScopeVar. rewrite (m_scoper _ _ _ MA). exists P. split; [apply later_refl, MA|]. split; auto.
    destruct (ScopeVar (gScoper c2) v) eqn:E; cbn; auto. split; eauto.
  - intros P' c1' c2' w w' LA MA' [<- Hw]. pose proof MA' as [T E1 E2 AL]. specialize (AL _ Hw). unfold alike in AL.
    pose proof (l_exists _ _ _ L1 _ (w, 0, BOT) (t_i1 _ _ _ T)) as X. pose proof (l_exists _ _ _ L2 _ (w, 0, BOT) (t_i2 _ _ _ T)) as Y.
    unfold sim.
    destruct (v_Exists X1 (w, 0, BOT) (gVM c1')) eqn:Q1, (v_Exists X2 (w, 0, BOT) (gVM c2')) eqn:Q2.
    + exists P'. split; [now apply later_refl|]. split; auto. now apply frel_true.
    + exfalso. assert (false = true) by tauto. discriminate.
    + exfalso. assert (false = true) by tauto. discriminate.
    + rewrite <- E2. exact (sim_emits P' c1' c2' (withvar_emits (Z.of_nat (Dim (gModel c1'))) w) MA').
Qed.

Lemma sim_loop : forall body1 body2,
  (forall P c1 c2, matched P c1 c2 -> sim P c1 c2 body1 body2 frel) ->
  forall n it i P c1 c2 f g, matched P c1 c2 -> frel P (gVM c1) (gVM c2) f g ->
  sim P c1 c2 (gforall_loop n body1 it i f) (gforall_loop n body2 it i g) frel.
Proof.
  intros body1 body2 H. induction n as [|n IH]; intros it i P c1 c2 f g MA F; cbn [gforall_loop].
  - exists P. split; [apply later_refl, MA|]. split; auto. exact Logic.I.
  - eapply sim_bind; [now apply sim_lift|]. intros P1 d1 d2 [more it1] r LA MA1 <-. destruct more.
    2:{ apply sim_ret; auto. eapply frel_later; eauto. }
    eapply (sim_bind _ _ _ _ _ _ _ _ _ (fun _ _ _ _ _ => True)).
    + unfold sim, g_SetScope. pose proof MA1 as [T E1 E2 AL]. rewrite <- E1.
      destruct (SetScope (gScoper d1) i (it_t it1)) as [e s]. exists P1. split; [now apply later_refl|]. split.
      * constructor; auto.
      * destruct e; reflexivity.
    + intros P2 e1 e2 _ _ LA2 MA2 _. eapply sim_bind; [now apply H|]. intros P3 h1 h2 f' g' LA3 MA3 F3.
      apply IH; auto. apply frel_conj; auto; [apply MA3|]. eapply frel_later; [exact LA3|]. eapply frel_later; [exact LA2|]. eapply frel_later; eauto.
Qed.

Lemma sim_defer : forall P c1 c2 (m1 : GM V1 CNF) (m2 : GM V2 CNF) R, sim P c1 c2 m1 m2 R -> sim P c1 c2 (gdefer_PopScope m1) (gdefer_PopScope m2) R.
Proof.
  intros * S. unfold sim, gdefer_PopScope in *. destruct (m1 c1) as [r1 c1'], (m2 c2) as [r2 c2']. destruct S as (P' & LA & MA & E).
  pose proof MA as [T E1 E2 AL].
  destruct r1, r2; cbn [same_end] in E; try contradiction; try (exists P'; now auto); rewrite <- E1; destruct (PopScope (gScoper c1')) as [[pe|] s]; cbn [gset_scoper gVM];
    exists P'; (split; [exact LA|]); (split; [constructor; auto|]); cbn [same_end]; auto; now subst.
Qed.

Theorem sim_enc : forall q, (forall v s w, In v (quantified q) -> ScopeVar s v = Ok w -> A (w, 0, BOT)) ->
  forall P c1 c2, matched P c1 c2 -> sim P c1 c2 (genc X1 q) (genc X2 q) frel.
Proof.
  induction q as [|a|q IH|q1 IH1 q2 IH2|q1 IH1 q2 IH2|v q IH|k q IH]; intros HA P c1 c2 MA; cbn [genc quantified] in *.
  - exists P. split; [apply later_refl, MA|]. split; auto. exact Logic.I.
  - now apply sim_atom.
  - apply sim_wrap. destruct (is_nil q); [now apply sim_fail|]. eapply sim_bind; [now apply IH|]. intros. now apply sim_negate.
  - apply sim_wrap. destruct (is_nil q1); [now apply sim_fail|]. destruct (is_nil q2); [now apply sim_fail|].
    eapply sim_bind; [apply sim_wrap, IH1; auto; intros; eapply HA; [apply in_or_app; eauto|eauto]|]. intros P1 d1 d2 f1 g1 LA1 MA1 F1.
    eapply sim_bind; [apply sim_wrap, IH2; auto; intros; eapply HA; [apply in_or_app; eauto|eauto]|]. intros P2 e1 e2 f2 g2 LA2 MA2 F2.
    apply sim_ret; auto. apply frel_conj; auto; [apply MA2|]. eapply frel_later; eauto.
  - apply sim_wrap. destruct (is_nil q1); [now apply sim_fail|]. destruct (is_nil q2); [now apply sim_fail|].
    eapply sim_bind; [apply sim_wrap, IH1; auto; intros; eapply HA; [apply in_or_app; eauto|eauto]|]. intros P1 d1 d2 f1 g1 LA1 MA1 F1.
    eapply sim_bind; [apply sim_wrap, IH2; auto; intros; eapply HA; [apply in_or_app; eauto|eauto]|]. intros P2 e1 e2 f2 g2 LA2 MA2 F2.
    eapply sim_bind; [apply sim_negate; auto; eapply frel_later; eauto|]. intros P3 h1 h2 f3 g3 LA3 MA3 F3.
    eapply sim_bind; [apply sim_negate; auto; eapply frel_later; eauto|]. intros P4 i1 i2 f4 g4 LA4 MA4 F4.
    apply sim_negate; auto. apply frel_conj; auto; [apply MA4|]. eapply frel_later; eauto.
  - apply sim_wrap. destruct (is_nil q); [now apply sim_fail|].
    eapply sim_bind; [exact (sim_scoper P c1 c2 (fun s => AddVar s v) MA)|]. intros P1 d1 d2 _ _ LA1 MA1 _.
    eapply sim_bind; [apply sim_I; auto; intros; eapply HA; [now left|eauto]|]. intros P2 e1 e2 f2 g2 LA2 MA2 F2.
    eapply sim_bind; [apply IH; auto; intros; eapply HA; [right; eauto|eauto]|]. intros P3 h1 h2 f3 g3 LA3 MA3 F3.
    apply sim_ret; auto. apply frel_conj; auto; [apply MA3|]. eapply frel_later; eauto.
  - apply sim_wrap. destruct (is_nil q); [now apply sim_fail|].
    eapply sim_bind; [exact (sim_scoper P c1 c2 (fun s => AddScope s (cID k)) MA)|]. intros P1 d1 d2 _ _ LA1 MA1 _.
    apply sim_defer. unfold sim. rewrite (m_model _ _ _ MA1).
    refine (sim_bind _ _ _ _ P1 d1 d2 _ _ (fun _ _ _ a b => a = b) _ _ frel (sim_lift _ _ _ _ _ MA1) _).
    intros P2 e1 e2 it it' LA2 MA2 <-. apply sim_loop; auto. apply frel_true, MA2.
Qed.
End Sim.

(* ---- from pairs to a renaming ---- *)

Definition rho_of (P : pairs) (k x : Z) : Z := match find (fun p => fst p =? x) P with Some p => snd p | None => k + x end.
Definition back_of (P : pairs) (k y : Z) : Z := match find (fun p => snd p =? y) P with Some p => fst p | None => y - k end.

Section Rho.
Variables (P : pairs) (k : Z).
Hypothesis k_pos : 0 <= k.
Hypothesis bound : forall a b, In (a, b) P -> 1 <= a /\ 1 <= b <= k.
Hypothesis fn : forall a b b', In (a, b) P -> In (a, b') P -> b = b'.
Hypothesis inj : forall a a' b, In (a, b) P -> In (a', b) P -> a = a'.

Lemma rho_in : forall a b, In (a, b) P -> rho_of P k a = b.
Proof.
  intros a b H. unfold rho_of. destruct (find (fun p => fst p =? a) P) as [[x y]|] eqn:E.
  - apply find_some in E as [H' E]. apply Z.eqb_eq in E. cbn [fst snd] in *. subst x. eapply fn; eauto.
  - pose proof (find_none _ _ E _ H) as Q. cbn in Q. rewrite Z.eqb_refl in Q. discriminate.
Qed.
Lemma back_in : forall a b, In (a, b) P -> back_of P k b = a.
Proof.
  intros a b H. unfold back_of. destruct (find (fun p => snd p =? b) P) as [[x y]|] eqn:E.
  - apply find_some in E as [H' E]. apply Z.eqb_eq in E. cbn [fst snd] in *. subst y. eapply inj; eauto.
  - pose proof (find_none _ _ E _ H) as Q. cbn in Q. rewrite Z.eqb_refl in Q. discriminate.
Qed.
Lemma rho_back : forall x, 1 <= x -> 1 <= rho_of P k x /\ back_of P k (rho_of P k x) = x.
Proof.
  intros x Hx. destruct (find (fun p => fst p =? x) P) as [[a b]|] eqn:E.
  - apply find_some in E as [H E]. apply Z.eqb_eq in E. cbn [fst] in E. subst a. rewrite (rho_in _ _ H). split; [apply (bound _ _ H)|now apply back_in].
  - unfold rho_of. rewrite E. split; [lia|]. unfold back_of. destruct (find (fun p => snd p =? k + x) P) as [[a b]|] eqn:F; [|lia].
    apply find_some in F as [H F]. apply Z.eqb_eq in F. cbn [snd] in F. subst b. destruct (bound _ _ H). lia.
Qed.
Lemma rho_renaming : renaming (rho_of P k).
Proof.
  split; [intros x Hx; now apply rho_back|]. intros x y Hx Hy E. rewrite <- (proj2 (rho_back x Hx)), <- (proj2 (rho_back y Hy)). now rewrite E.
Qed.
Lemma rho_clauses : forall f g, crel P f g -> g = map (map (rename_lit (rho_of P k))) f.
Proof.
  intros f g H. induction H as [|c c' f g Hc _ IH]; [reflexivity|]. cbn [map]. rewrite <- IH. f_equal. clear IH.
  induction Hc as [|l l' c c' (a & b & Hi & R) _ IH]; [reflexivity|]. cbn [map]. rewrite <- IH. f_equal.
  destruct (bound _ _ Hi). unfold rename_lit. destruct R as [[-> ->]|[-> ->]].
  - destruct (Z.ltb_spec 0 a); [|lia]. symmetry. now apply rho_in.
  - destruct (Z.ltb_spec 0 (- a)); [lia|]. rewrite Z.opp_involutive. f_equal. symmetry. now apply rho_in.
Qed.
End Rho.

(* ---- a renamed formula has the same models ---- *)

Lemma rename_lit_true : forall rho r l, renaming rho -> l <> 0 -> lit_true r (rename_lit rho l) = lit_true (fun x => r (rho x)) l.
Proof.
  intros rho r l [H _] Hl. unfold rename_lit. destruct (Z.ltb_spec 0 l) as [Q|Q].
  - specialize (H l ltac:(lia)). rewrite !lit_true_pos by lia. reflexivity.
  - specialize (H (- l) ltac:(lia)). rewrite lit_true_neg by lia. replace l with (- - l) at 2 by lia. rewrite lit_true_neg by lia. reflexivity.
Qed.
Lemma rename_true : forall rho r cls, renaming rho -> legal_clauses cls -> clauses_true r (map (map (rename_lit rho)) cls) = clauses_true (fun x => r (rho x)) cls.
Proof.
  intros rho r cls H L. induction L as [|c cls Lc _ IH]; [reflexivity|]. unfold clauses_true in *. cbn [map forallb]. rewrite IH. f_equal.
  unfold clause_true. clear IH. induction Lc as [|l c Hl _ IH]; [reflexivity|]. cbn [map existsb]. rewrite IH. now rewrite rename_lit_true.
Qed.

(* A renaming can be undone on valuations. *)
Definition undoable (rho : Z -> Z) : Prop := forall r : valuation, exists r' : valuation, forall x, 1 <= x -> r' (rho x) = r x.

Lemma truth_renamed : forall rho f g, renaming rho -> legal_clauses (sClauses f) -> legal_clauses (cClauses f) -> renamed rho f g ->
  forall r, Sem r g = Sem (fun x => r (rho x)) f /\ Con r g = Con (fun x => r (rho x)) f /\ Models r g = Models (fun x => r (rho x)) f.
Proof.
  intros rho f g H LS LC [RS RC] r. unfold Models, Sem, Con. rewrite RS, RC, !rename_true by auto. auto.
Qed.

Lemma truth_local : forall r r' f, legal_clauses (sClauses f) -> legal_clauses (cClauses f) -> (forall x, 1 <= x -> r x = r' x) -> Models r f = Models r' f.
Proof.
  intros r r' f LS LC H. unfold Models, Sem, Con. rewrite (clauses_true_agree (maxVar (sClauses f)) r r' (sClauses f)), (clauses_true_agree (maxVar (cClauses f)) r r' (cClauses f)); auto.
  - intros x Hx. apply H. lia.
  - now apply maxVar_bound.
  - intros x Hx. apply H. lia.
  - now apply maxVar_bound.
Qed.

(* ---- C59 ---- *)

Section Any.
Variables (V : Type) (X : manager V) (num : V -> varRep -> option Z) (inv : V -> Prop).
Hypothesis L : lawful X num inv.

Let num0 (vm : varman) (t : varRep) : option Z := vlookup (vm_vars vm) t.

Lemma any_core : forall q (A : varRep -> Prop) P s m vm w, (forall v s' n, In v (quantified q) -> ScopeVar s' v = Ok n -> A (n, 0, BOT)) ->
  tied varman V base_manager X num0 num vm_inv inv P vm w -> (forall t, A t -> alike varman V num0 num vm w t) ->
  match enc q (mkCtx s vm m), genc X q (mkGctx s w m) with
  | (r1, c1), (r2, c2) =>
      cScoper c1 = gScoper c2 /\ cModel c1 = gModel c2 /\ vm_inv (cVM c1) /\ inv (gVM c2) /\
      (forall t, alike varman V num0 num vm w t -> alike varman V num0 num (cVM c1) (gVM c2) t) /\
      same_end (fun f g => legal_clauses (sClauses f) /\ legal_clauses (cClauses f) /\
        exists rho, renaming rho /\ undoable rho /\ renamed rho f g /\ tv g <= v_Top X (gVM c2) /\
        (forall a b, In (a, b) P -> rho a = b) /\
        (forall t a b, num0 (cVM c1) t = Some a -> num (gVM c2) t = Some b -> rho a = b)) r1 r2
  end.
Proof.
  intros q A P s m vm w HA T AL.
  pose proof (sim_enc varman V base_manager X num0 num vm_inv inv base_lawful L A q HA P (mkGctx s vm m) (mkGctx s w m)) as S.
  unfold sim in S. change (mkGctx s vm m) with (down (mkCtx s vm m)) in S. rewrite (genc_base q (mkCtx s vm m)) in S.
  destruct (enc q (mkCtx s vm m)) as [r1 c1], (genc X q (mkGctx s w m)) as [r2 c2]. cbn [fst snd] in S.
  destruct S as (P' & LA & [T' E1 E2 AL'] & E). { constructor; cbn; auto. }
  change (gScoper (down c1)) with (cScoper c1) in *. change (gModel (down c1)) with (cModel c1) in *. change (gVM (down c1)) with (cVM c1) in *.
  cbn [gVM down cVM] in LA. pose proof T' as [I1 I2 TB TF TJ T1 T2 T3]. pose proof LA as [_ INC _ _ ALI].
  repeat (split; [assumption|]). destruct r1 as [f|e| |], r2 as [g|e'| |]; cbn [same_end] in *; auto.
  destruct E as (F1 & F2 & F3 & F4).
  assert (BP : forall a b, In (a, b) P' -> 1 <= a /\ 1 <= b <= v_Top X (gVM c2)) by (intros a b H; destruct (TB _ _ H); lia).
  pose proof (l_top _ _ _ L _ I2) as K.
  destruct (crel_bound _ _ _ _ _ _ _ _ _ _ _ _ _ T' F1) as [B1 _]. destruct (crel_bound _ _ _ _ _ _ _ _ _ _ _ _ _ T' F2) as [B2 _].
  split; [eapply clauses_bound_legal; eauto|]. split; [eapply clauses_bound_legal; eauto|].
  exists (rho_of P' (v_Top X (gVM c2))). split; [now apply rho_renaming|]. split.
  - intros r. exists (fun y => r (back_of P' (v_Top X (gVM c2)) y)). intros x Hx. cbn beta. now rewrite (proj2 (rho_back P' _ K BP TF TJ x Hx)).
  - split; [split; now apply rho_clauses|]. split; [exact F4|]. split.
    + intros a b H. apply rho_in; auto.
    + intros t a b Ha Hb. apply rho_in; eauto.
Qed.

(* Whatever the query, scopes and model: with any lawful manager without triples the
   encoding ends as it does with the library's manager, with the same error or with
   the same clauses, literal by literal, up to a renaming of the variables; the same
   triples get numbers, related by the renaming. *)
Theorem C59_any_manager : forall q s m k w, 0 <= k -> inv w -> (forall t, num w t = None) ->
  match enc q (mkCtx s (mkVarman k []) m), genc X q (mkGctx s w m) with
  | (r1, c1), (r2, c2) =>
      gScoper c2 = cScoper c1 /\ inv (gVM c2) /\
      same_end (fun f g => exists rho, renaming rho /\ renamed rho f g /\ tv g <= v_Top X (gVM c2) /\
        forall t, num (gVM c2) t = option_map rho (vlookup (vm_vars (cVM c1)) t)) r1 r2
  end.
Proof.
  intros q s m k w Hk Hw Hn.
  assert (AL : forall t, alike varman V num0 num (mkVarman k []) w t).
  { intros t. unfold alike, num0. rewrite Hn. cbn. tauto. }
  pose proof (any_core q (fun _ => True) [] s m (mkVarman k []) w (fun _ _ _ _ _ => Logic.I)) as C.
  destruct (enc q (mkCtx s (mkVarman k []) m)) as [r1 c1], (genc X q (mkGctx s w m)) as [r2 c2].
  destruct C as (E1 & E2 & I1 & I2 & AL' & E); auto.
  { constructor; auto.
    - split; [exact Hk|]. split; cbn; discriminate.
    - intros a b [].
    - intros a b b' [].
    - intros a a' b [].
    - unfold num0. cbn. discriminate.
    - intros t a b [].
    - intros t a b []. }
  split; [auto|]. split; [auto|]. destruct r1 as [f|e| |], r2 as [g|e'| |]; cbn [same_end] in *; auto.
  destruct E as (_ & _ & rho & R & _ & RN & TV & _ & N). exists rho. repeat (split; [assumption|]).
  intros t. specialize (AL' t (AL t)). unfold alike, num0 in *. destruct (vlookup (vm_vars (cVM c1)) t) as [a|] eqn:Ea; cbn [option_map].
  - destruct (num (gVM c2) t) as [b|] eqn:Eb; [f_equal; symmetry; eauto|]. exfalso. destruct AL' as [Q _]. apply Q; congruence.
  - destruct (num (gVM c2) t) as [b|]; auto. exfalso. destruct AL' as [_ Q]. apply Q; congruence.
Qed.

(* So the formula has the same models: a solver's answer, and the instances it
   spells, do not depend on the manager. *)
Definition same_values (vm : varman) (w : V) (r r' : valuation) : Prop :=
  forall t a b, vlookup (vm_vars vm) t = Some a -> num w t = Some b -> r a = r' b.

Theorem C59_same_models : forall q s m k w f c1, 0 <= k -> inv w -> (forall t, num w t = None) ->
  enc q (mkCtx s (mkVarman k []) m) = (Ok f, c1) ->
  exists g c2, genc X q (mkGctx s w m) = (Ok g, c2) /\
    (forall r, Models r f = true -> exists r', Models r' g = true /\ same_values (cVM c1) (gVM c2) r r') /\
    (forall r', Models r' g = true -> exists r, Models r f = true /\ same_values (cVM c1) (gVM c2) r r').
Proof.
  intros q s m k w f c1 Hk Hw Hn E.
  assert (AL : forall t, alike varman V num0 num (mkVarman k []) w t).
  { intros t. unfold alike, num0. rewrite Hn. cbn. tauto. }
  pose proof (any_core q (fun _ => True) [] s m (mkVarman k []) w (fun _ _ _ _ _ => Logic.I)) as C. rewrite E in C.
  destruct (genc X q (mkGctx s w m)) as [r2 c2].
  destruct C as (E1 & E2 & I1 & I2 & AL' & E'); auto.
  { constructor; auto.
    - split; [exact Hk|]. split; cbn; discriminate.
    - intros a b [].
    - intros a b b' [].
    - intros a a' b [].
    - unfold num0. cbn. discriminate.
    - intros t a b [].
    - intros t a b []. }
  destruct r2 as [g|e'| |]; cbn [same_end] in E'; try contradiction. exists g, c2. split; [reflexivity|].
  destruct E' as (LS & LC & rho & R & U & RN & _ & _ & N).
  assert (PN : forall t a, vlookup (vm_vars (cVM c1)) t = Some a -> 1 <= a) by (intros t a Ha; apply I1 in Ha; lia).
  split.
  - intros r Hr. destruct (U r) as [r' Hr']. exists r'. split.
    + destruct (truth_renamed rho f g R LS LC RN r') as (_ & _ & ->). rewrite <- Hr. apply truth_local; auto.
    + intros t a b Ha Hb. rewrite <- (N t a b Ha Hb). symmetry. apply Hr'. eauto.
  - intros r' Hr'. exists (fun x => r' (rho x)). destruct (truth_renamed rho f g R LS LC RN r') as (_ & _ & Q). split; [congruence|].
    intros t a b Ha Hb. now rewrite (N t a b Ha Hb).
Qed.
End Any.

(* ---- C60 ---- *)

Definition common (a b : varman) : pairs :=
  flat_map (fun kv => match vlookup (vm_vars a) (fst kv), vlookup (vm_vars b) (fst kv) with Some x, Some y => [(x, y)] | _, _ => [] end) (vm_vars a).

Lemma vlookup_In : forall l t n, vlookup l t = Some n -> In (t, n) l.
Proof.
  induction l as [|[u k] l IH]; cbn; intros t n H; [discriminate|]. destruct (varRep_eqb_spec u t); [left; congruence|right; auto].
Qed.

Lemma in_common : forall a b x y, In (x, y) (common a b) <-> exists t, vlookup (vm_vars a) t = Some x /\ vlookup (vm_vars b) t = Some y.
Proof.
  intros a b x y. unfold common. rewrite in_flat_map. split.
  - intros ([t n] & _ & H). cbn [fst] in H. destruct (vlookup (vm_vars a) t) eqn:E1, (vlookup (vm_vars b) t) eqn:E2; cbn in H; try contradiction.
    destruct H as [H|[]]. injection H as -> ->. eauto.
  - intros (t & H1 & H2). exists (t, x). split; [now apply vlookup_In|]. cbn [fst]. rewrite H1, H2. now left.
Qed.

Lemma ScopeVar_shape : forall s v w, ScopeVar s v = Ok w -> exists l, w = scoped_name v l.
Proof.
  intros s v w H. unfold ScopeVar in H. destruct (length (scopes s) =? 0)%nat; [injection H as <-; exists []; reflexivity|].
  set (n := match slookup (svars s) v with Some n => n | None => 0%nat end) in H. clearbody n. fold (sv_step (scopes s)) in H.
  revert w H. induction n as [|n IH]; intros w H; [injection H as <-; exists []; reflexivity|].
  rewrite seq_S, fold_left_app in H. cbn [fold_left] in H. unfold sv_step at 1 in H.
  destruct (fold_left (sv_step (scopes s)) (seq 0 n) (Ok v)) as [b|e| |]; cbn [rbind] in H; try discriminate.
  destruct (sget (scopes s) (Z.of_nat (0 + n))) as [sc|e| |]; cbn [rbind] in H; try discriminate. injection H as <-.
  destruct (IH b eq_refl) as [l ->]. exists (l ++ [sc]). unfold scoped_name. now rewrite fold_left_app.
Qed.

(* Two contexts with the same scopes and model, whatever they were used for before,
   that agree on which of the query's own variables have been declared. *)
Definition declared_alike (q : query) (a b : varman) : Prop :=
  forall v l, In v (quantified q) -> CNFVarExists a (scoped_name v l, 0, BOT) = CNFVarExists b (scoped_name v l, 0, BOT).

Lemma history_start : forall q a b, vm_inv a -> vm_inv b -> declared_alike q a b ->
  exists A : varRep -> Prop, (forall v s' n, In v (quantified q) -> ScopeVar s' v = Ok n -> A (n, 0, BOT)) /\
    (forall t, A t -> alike varman varman (fun vm t => vlookup (vm_vars vm) t) (fun vm t => vlookup (vm_vars vm) t) a b t) /\
    tied varman varman base_manager base_manager (fun vm t => vlookup (vm_vars vm) t) (fun vm t => vlookup (vm_vars vm) t) vm_inv vm_inv (common a b) a b.
Proof.
  intros q a b Ia Ib D. exists (fun t => exists v l, In v (quantified q) /\ t = (scoped_name v l, 0, BOT)). split; [|split].
  - intros v s' n Hv Hs. destruct (ScopeVar_shape _ _ _ Hs) as [l ->]. eauto.
  - intros t (v & l & Hv & ->). specialize (D v l Hv). unfold CNFVarExists, alike in *.
    destruct (vlookup (vm_vars a) (scoped_name v l, 0, BOT)), (vlookup (vm_vars b) (scoped_name v l, 0, BOT)); split; congruence.
  - pose proof Ia as (_ & Ra & Ja). pose proof Ib as (_ & Rb & Jb). constructor; auto.
    + intros x y H. apply in_common in H as (t & H1 & H2). split; [eapply Ra|eapply Rb]; eauto.
    + intros x y y' H H'. apply in_common in H as (t & H1 & H2). apply in_common in H' as (u & H3 & H4). rewrite (Ja _ _ _ H1 H3) in *. congruence.
    + intros x x' y H H'. apply in_common in H as (t & H1 & H2). apply in_common in H' as (u & H3 & H4). rewrite (Jb _ _ _ H2 H4) in *. congruence.
    + intros t x y H1 H2. apply in_common. eauto.
    + intros t x y H H1. apply in_common in H as (u & H2 & H3). now rewrite (Ja _ _ _ H1 H2).
    + intros t x y H H1. apply in_common in H as (u & H2 & H3). now rewrite (Jb _ _ _ H1 H3).
Qed.

Lemma genc_base_run : forall q s vm m r c, enc q (mkCtx s vm m) = (r, c) -> genc base_manager q (mkGctx s vm m) = (r, down c).
Proof. intros q s vm m r c E. exact (mirror_run _ _ _ (genc_base q) _ _ _ E). Qed.

Theorem C60_history : forall q s m a b, vm_inv a -> vm_inv b -> declared_alike q a b ->
  match enc q (mkCtx s a m), enc q (mkCtx s b m) with
  | (r1, c1), (r2, c2) =>
      cScoper c1 = cScoper c2 /\
      same_end (fun f g => exists rho, renaming rho /\ renamed rho f g /\
        forall t x y, vlookup (vm_vars (cVM c1)) t = Some x -> vlookup (vm_vars (cVM c2)) t = Some y -> y = rho x) r1 r2
  end.
Proof.
  intros q s m a b Ia Ib D. destruct (history_start q a b Ia Ib D) as (A & HA & AL & T).
  pose proof (any_core varman base_manager _ _ base_lawful q A _ s m a b HA T AL) as C.
  destruct (enc q (mkCtx s a m)) as [r1 c1], (enc q (mkCtx s b m)) as [r2 c2] eqn:E2. rewrite (genc_base_run _ _ _ _ _ _ E2) in C.
  destruct C as (E & _ & _ & _ & _ & C). split; [exact E|]. destruct r1 as [f|e| |], r2 as [g|e'| |]; cbn [same_end] in *; auto.
  destruct C as (_ & _ & rho & R & _ & RN & _ & _ & N). exists rho. split; [exact R|]. split; [exact RN|]. intros t x y Hx Hy. symmetry. eapply N; eauto.
Qed.

Theorem C60_same_models : forall q s m a b f c1, vm_inv a -> vm_inv b -> declared_alike q a b ->
  enc q (mkCtx s a m) = (Ok f, c1) ->
  exists g c2, enc q (mkCtx s b m) = (Ok g, c2) /\
    forall r, Models r f = true -> exists r', Models r' g = true /\
      forall t x y, vlookup (vm_vars (cVM c1)) t = Some x -> vlookup (vm_vars (cVM c2)) t = Some y -> r x = r' y.
Proof.
  intros q s m a b f c1 Ia Ib D E1. destruct (history_start q a b Ia Ib D) as (A & HA & AL & T).
  pose proof (any_core varman base_manager _ _ base_lawful q A _ s m a b HA T AL) as C. rewrite E1 in C.
  destruct (enc q (mkCtx s b m)) as [r2 c2] eqn:E2. rewrite (genc_base_run _ _ _ _ _ _ E2) in C.
  destruct C as (_ & _ & I1 & _ & _ & C). destruct r2 as [g|e'| |]; cbn [same_end] in C; try contradiction. exists g, c2. split; [reflexivity|].
  destruct C as (LS & LC & rho & R & U & RN & _ & _ & N). intros r Hr. destruct (U r) as [r' Hr']. exists r'. split.
  - destruct (truth_renamed rho f g R LS LC RN r') as (_ & _ & ->). rewrite <- Hr. apply truth_local; auto.
  - intros t x y Hx Hy. rewrite <- (N t x y Hx Hy). symmetry. apply Hr'. apply I1 in Hx. lia.
Qed.

(* ---- examples ---- *)

(* A manager that leaves gaps: new numbers go up by two, raises by one more. *)
Definition gap_manager : manager varman :=
  mkManager varman vm_topv
    (fun v vm => if v <? vm_topv vm then vm else mkVarman (v + 1) (vm_vars vm))
    (fun t vm => match vlookup (vm_vars vm) t with Some n => (n, vm) | None => (vm_topv vm + 2, mkVarman (vm_topv vm + 2) ((t, vm_topv vm + 2) :: vm_vars vm)) end)
    (fun t vm => CNFVarExists vm t).

Example gap_lawful : lawful gap_manager (fun vm t => vlookup (vm_vars vm) t) vm_inv.
Proof.
  constructor.
  - intros w [H _]. exact H.
  - intros w t n [_ [H _]]. apply H.
  - intros w t u n [_ [_ H]]. apply H.
  - intros w t n w' (I0 & I1 & I2) E. cbn [v_Var v_Top gap_manager] in *. destruct (vlookup (vm_vars w) t) as [m|] eqn:El; injection E as <- <-.
    + split; [split; auto|]. split; [lia|]. split; [exact El|]. split; [auto|]. split; [congruence|discriminate].
    + assert (Hd : forall u m, vlookup ((t, vm_topv w + 2) :: vm_vars w) u = Some m ->
                   (u = t /\ m = vm_topv w + 2) \/ (u <> t /\ vlookup (vm_vars w) u = Some m)).
      { intros u m. simpl. destruct (varRep_eqb_spec t u); [left|right]; split; congruence. }
      cbn [vm_topv vm_vars]. split.
      { split; [cbn; lia|]. cbn [vm_topv vm_vars]. split.
        - intros u m Hu. apply Hd in Hu as [[_ ->]|[_ Hu]]; [lia|]. apply I1 in Hu. lia.
        - intros u u' m Hu Hu'. apply Hd in Hu as [[-> ->]|[_ Hu]]; apply Hd in Hu' as [[-> Hm]|[_ Hu']]; auto.
          + apply I1 in Hu'. lia.
          + apply I1 in Hu. lia.
          + eauto. }
      split; [lia|]. split; [cbn; now rewrite varRep_eqb_refl|]. split.
      { intros u Hu. cbn. destruct (varRep_eqb_spec t u); congruence. }
      split; [discriminate|lia].
  - intros w t I. cbn [v_Exists gap_manager]. unfold CNFVarExists. destruct (vlookup (vm_vars w) t); split; congruence.
  - intros w k (I0 & I1 & I2) H. cbn [v_Update v_Top gap_manager] in *. destruct (Z.ltb_spec k (vm_topv w)); [lia|]. cbn [vm_topv vm_vars].
    split; [|split; [lia|auto]]. split; [cbn; lia|]. cbn [vm_topv vm_vars]. split; auto. intros t n Ht. apply I1 in Ht. lia.
Qed.

(* x and y are incomparable, one feature. *)
Definition incomparable : query := QWith "x" (QWith "y" (QAnd (QNot (QAtom (SubsVV "x" "y"))) (QNot (QAtom (SubsVV "y" "x"))))).
Definition one_leaf : model := mkModel 1 [mkNode true 0 (-1) (-1)].
Definition no_scopes : scoper := mkScoper [] [].

Example C59_gaps : exists f c1 g c2 rho,
  enc incomparable (mkCtx no_scopes (mkVarman 0 []) one_leaf) = (Ok f, c1) /\
  genc gap_manager incomparable (mkGctx no_scopes (mkVarman 7 []) one_leaf) = (Ok g, c2) /\
  renaming rho /\ renamed rho f g /\ f <> g /\ vlookup (vm_vars (gVM c2)) ("x", 0, ONE) = option_map rho (vlookup (vm_vars (cVM c1)) ("x", 0, ONE)).
Proof.
  pose proof (C59_any_manager _ _ _ _ gap_lawful incomparable no_scopes one_leaf 0 (mkVarman 7 []) ltac:(lia)) as H.
  destruct (enc incomparable (mkCtx no_scopes (mkVarman 0 []) one_leaf)) as [r1 c1] eqn:E1, (genc gap_manager incomparable (mkGctx no_scopes (mkVarman 7 []) one_leaf)) as [r2 c2] eqn:E2.
  destruct H as (_ & _ & H).
  { split; [cbn; lia|]. split; cbn; discriminate. }
  { intros t. reflexivity. }
  vm_compute in E1, E2. apply pair_equal_spec in E1 as [<- <-]. apply pair_equal_spec in E2 as [<- <-]. cbn [same_end] in H. destruct H as (rho & R & RN & _ & N).
  eexists _, _, _, _, rho. split; [reflexivity|]. split; [reflexivity|]. split; [exact R|]. split; [exact RN|]. split; [discriminate|]. apply N.
Qed.

(* The interface lets UpdateTopV return false; encoders do not look.  With a manager
   that is the library's except that it refuses every raise, two negations share
   auxiliary variables and a satisfiable query gets an unsatisfiable formula. *)
Definition refusing_manager : manager varman :=
  mkManager varman (v_Top base_manager) (fun _ vm => vm) (v_Var base_manager) (v_Exists base_manager).

Theorem C59_refused_update_refuted : exists q m f c1 g c2,
  enc q (mkCtx no_scopes (mkVarman 0 []) m) = (Ok f, c1) /\ genc refusing_manager q (mkGctx no_scopes (mkVarman 0 []) m) = (Ok g, c2) /\
  (exists r, Models r f = true) /\ (forall r, Models r g = false).
Proof.
  exists incomparable, one_leaf. eexists _, _, _, _. split; [vm_compute; reflexivity|]. split; [vm_compute; reflexivity|]. split.
  - exists (fun x => existsb (Z.eqb x) [1; 5; 8; 9; 10; 12]). vm_compute. reflexivity.
  - intros r. unfold Models, Sem, Con, clauses_true, clause_true, lit_true. cbn.
    destruct (r 1), (r 2), (r 3), (r 4), (r 5), (r 6), (r 7), (r 8), (r 9); reflexivity.
Qed.

(* The same query in a new context and in one where another query, on z and on the
   free y, has been encoded before. *)
Definition other_query : query := QNot (QWith "z" (QAtom (SubsVV "z" "t"))).
Lemma name_prefix : forall l v, exists w, scoped_name v l = (v ++ w)%string.
Proof.
  induction l as [|sc l IH]; intros v.
  - exists ""%string. cbn. induction v as [|ch v IH]; cbn; [reflexivity|now rewrite <- IH].
  - unfold scoped_name in *. cbn [fold_left]. destruct (IH (v ++ scope_suffix sc)%string) as [w ->]. exists (scope_suffix sc ++ w)%string.
    induction v as [|ch v IHv]; cbn [append]; [reflexivity|now rewrite IHv].
Qed.
Lemma vm_kept : forall q s vm m r c, vm_inv vm -> enc q (mkCtx s vm m) = (r, c) -> vm_inv (cVM c).
Proof.
  intros q s vm m r c I E. destruct (history_start q vm vm I I ltac:(intros v l _; reflexivity)) as (A & HA & AL & T).
  pose proof (any_core varman base_manager _ _ base_lawful q A _ s m vm vm HA T AL) as C. rewrite E in C. rewrite (genc_base_run _ _ _ _ _ _ E) in C. apply C.
Qed.

Example C60_used_before : exists f g g' c1 c2 c3 rho,
  enc incomparable (mkCtx no_scopes (mkVarman 0 []) one_leaf) = (Ok f, c1) /\
  enc other_query (mkCtx no_scopes (mkVarman 0 []) one_leaf) = (Ok g', c2) /\ enc incomparable c2 = (Ok g, c3) /\
  f <> g /\ renaming rho /\ renamed rho f g.
Proof.
  assert (I0 : vm_inv (mkVarman 0 [])) by apply vm_inv_init.
  destruct (enc other_query (mkCtx no_scopes (mkVarman 0 []) one_leaf)) as [r c2] eqn:E2. pose proof (vm_kept _ _ _ _ _ _ I0 E2) as I2.
  vm_compute in E2. apply pair_equal_spec in E2 as [<- <-]. cbn [cVM] in I2.
  match type of I2 with vm_inv ?vm => pose proof (C60_history incomparable no_scopes one_leaf (mkVarman 0 []) vm I0 I2) as H;
    assert (D : declared_alike incomparable (mkVarman 0 []) vm) end.
  { intros v l Hv. cbn in Hv. unfold CNFVarExists. cbn [vm_vars vlookup].
    assert (NE : forall a i x, (a = "z" \/ a = "t")%string -> varRep_eqb (a, i, x) (scoped_name v l, 0, BOT) = false).
    { intros a i x Ha. destruct (varRep_eqb_spec (a, i, x) (scoped_name v l, 0, BOT)) as [E|]; auto. injection E as E _ _.
      destruct (name_prefix l v) as [w Hw]. rewrite Hw in E. destruct Hv as [<-|[<-|[]]], Ha as [->| ->]; discriminate E. }
    rewrite !NE by auto. reflexivity. }
  specialize (H D). clear D.
  destruct (enc incomparable (mkCtx no_scopes (mkVarman 0 []) one_leaf)) as [r1 c1] eqn:E1.
  match type of H with context [enc incomparable (mkCtx no_scopes ?vm one_leaf)] => destruct (enc incomparable (mkCtx no_scopes vm one_leaf)) as [r3 c3] eqn:E3 end.
  destruct H as (_ & H).
  vm_compute in E1, E3. apply pair_equal_spec in E1 as [<- <-]. apply pair_equal_spec in E3 as [<- <-]. cbn [same_end] in H. destruct H as (rho & R & RN & _).
  eexists _, _, _, _, _, _, rho. split; [reflexivity|]. split; [reflexivity|]. split; [vm_compute; reflexivity|]. split; [discriminate|]. split; [exact R|exact RN].
Qed.

Print Assumptions C59_any_manager.
Print Assumptions C59_same_models.
Print Assumptions C59_refused_update_refuted.
Print Assumptions C60_history.
Print Assumptions C60_same_models.
