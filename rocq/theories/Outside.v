(* C54: sub-queries that are not of the library's types.  The fields Q, Q1, Q2 of
   the logical operators are interface values (logop/logop.go:10-18): any type
   with an Encoding method can be put there. *)
From Verif Require Import GoBase GoLemmas Cnf Query Walk Atoms Logop Spec CnfSem QueryLemmas Sym AtomBase Form Master AtomCnf WalkLemmas Evolve Outcome Errors PropContext.
Local Open Scope string_scope.
Local Open Scope Z_scope.
Local Open Scope list_scope.

(* An Encoding method from outside, as what it can do: calls of the methods of
   the context that ask for names, numbers and the model (query/context.go:13-17,
   query/varmanager.go:26-61, query/scoper.go:43-83), and then a CNF made of
   clauses, True, False, an error or a panic.  What it computes in between is any
   function of the answers. *)
Inductive comp :=
| PClauses (sems cons : list clause)
| PBool (b : bool)
| PErr (e : string)
| PPanic
| PCNFVar (t : varRep) (k : Z -> comp)
| PExists (t : varRep) (k : bool -> comp)
| PTopV (k : Z -> comp)
| PScopeVar (v : QVar) (k : QVar -> comp)
| PScopeConst (c : QConst) (k : QConst * bool -> comp)
| PModel (k : model -> comp).

Fixpoint run_comp (p : comp) : M CNF :=
  match p with
  | PClauses ss cs => ret (AppendConsistency (AppendSemantics TrueCNF ss) cs)
  | PBool b => ret (if b then TrueCNF else FalseCNF)
  | PErr e => fail e
  | PPanic => lift Panic
  | PCNFVar t k => fun c => let (n, vm) := CNFVar (cVM c) t in run_comp (k n) (set_vm c vm)
  | PExists t k => fun c => run_comp (k (CNFVarExists (cVM c) t)) c
  | PTopV k => fun c => run_comp (k (vm_topv (cVM c))) c
  | PScopeVar v k => mdo w <- m_ScopeVar v ;; run_comp (k w)
  | PScopeConst x k => fun c => run_comp (k (ScopeConst (cScoper c) x)) c
  | PModel k => fun c => run_comp (k (cModel c)) c
  end.

(* The variables in its clauses are numbers it got from CNFVar. *)
Fixpoint keeps (K : list Z) (p : comp) : Prop :=
  match p with
  | PClauses ss cs => forall cl l, In cl (ss ++ cs) -> In l cl -> In (Z.abs l) K
  | PBool _ | PErr _ | PPanic => True
  | PCNFVar t k => forall n, 0 < n -> keeps (n :: K) (k n)
  | PExists t k => forall b, keeps K (k b)
  | PTopV k => forall n, keeps K (k n)
  | PScopeVar v k => forall w, keeps K (k w)
  | PScopeConst x k => forall y, keeps K (k y)
  | PModel k => forall m, keeps K (k m)
  end.

(* Queries with components from outside next to those of the library. *)
Inductive gquery :=
| GNil
| GLib (a : atom)
| GOut (p : comp)
| GNot (q : gquery)
| GAnd (q1 q2 : gquery)
| GOr (q1 q2 : gquery)
| GWith (v : QVar) (q : gquery)
| GAll (c : QConst) (q : gquery).

Definition g_nil (q : gquery) : bool := match q with GNil => true | _ => false end.

(* The operators as in Logop.v; the same lines of the code. *)
Fixpoint genc (q : gquery) : M CNF :=
  match q with
  | GNil => lift Panic
  | GLib a => enc_atom a
  | GOut p => run_comp p
  (* logop/not.go:20-49 *)
  | GNot q =>
      wrap "Not"
        (if g_nil q then fail nil_child_err
         else mdo f <- genc q ;; m_Negate f)
  (* logop/and.go:23-57 *)
  | GAnd q1 q2 =>
      wrap "And"
        (if g_nil q1 then fail (nil_child_err ++ " (1)")%string
         else if g_nil q2 then fail (nil_child_err ++ " (2)")%string
         else
           mdo f1 <- wrap "Q1" (genc q1) ;;
           mdo f2 <- wrap "Q2" (genc q2) ;;
           ret (Conjunction f1 f2))
  (* logop/or.go:23-71 *)
  | GOr q1 q2 =>
      wrap "Or"
        (if g_nil q1 then fail (nil_child_err ++ " (1)")%string
         else if g_nil q2 then fail (nil_child_err ++ " (2)")%string
         else
           mdo f1 <- wrap "Q1" (genc q1) ;;
           mdo f2 <- wrap "Q2" (genc q2) ;;
           mdo g1 <- m_Negate f1 ;;
           mdo g2 <- m_Negate f2 ;;
           m_Negate (Conjunction g1 g2))
  (* logop/with_var.go:22-56 *)
  | GWith v q =>
      wrap "WithVar"
        (if g_nil q then fail nil_child_err
         else
           mdo _ <- m_AddVar v ;;
           mdo fi <- encodeI v ;;
           mdo f <- genc q ;;
           ret (Conjunction fi f))
  (* logop/forallguarded.go:145-200 *)
  | GAll c q =>
      wrap "ForAllGuarded"
        (if g_nil q then fail nil_child_err
         else
           mdo _ <- m_AddScope (cID c) ;;
           defer_PopScope
             (fun cx =>
                (mdo it <- lift (newNodeAsValuesIter (Dim (cModel cx))
                                   (Nodes (cModel cx))) ;;
                 forall_loop (forall_fuel (Nodes (cModel cx))) (genc q) it 0 TrueCNF)
                  cx))
  end.

(* Library queries are the ones without outside components. *)
Fixpoint of_lib (q : query) : gquery :=
  match q with
  | QNil => GNil
  | QAtom a => GLib a
  | QNot q => GNot (of_lib q)
  | QAnd q1 q2 => GAnd (of_lib q1) (of_lib q2)
  | QOr q1 q2 => GOr (of_lib q1) (of_lib q2)
  | QWith v q => GWith v (of_lib q)
  | QAll c q => GAll c (of_lib q)
  end.

Fixpoint outside (q : gquery) : list comp :=
  match q with
  | GNil | GLib _ => []
  | GOut p => [p]
  | GNot q | GWith _ q | GAll _ q => outside q
  | GAnd q1 q2 | GOr q1 q2 => outside q1 ++ outside q2
  end.

Lemma bind_ext : forall A B (x y : M A) (f g : A -> M B) c, x c = y c -> (forall a c', x c = (Ok a, c') -> f a c' = g a c') -> bind x f c = bind y g c.
Proof. intros A B x y f g c E H. unfold bind. rewrite <- E. destruct (x c) as [[a|e| |] c'] eqn:X; auto. Qed.
Lemma wrap_ext : forall A p (x y : M A) c, x c = y c -> wrap p x c = wrap p y c.
Proof. intros A p x y c E. unfold wrap. now rewrite E. Qed.
Lemma defer_ext : forall A (x y : M A) c, x c = y c -> defer_PopScope x c = defer_PopScope y c.
Proof. intros A x y c E. unfold defer_PopScope. now rewrite E. Qed.
Lemma loop_ext : forall (x y : M CNF), (forall c, x c = y c) -> forall fuel it i acc c, forall_loop fuel x it i acc c = forall_loop fuel y it i acc c.
Proof.
  intros x y H fuel. induction fuel as [|f IH]; intros it i acc c; cbn [forall_loop]; auto.
  apply bind_ext; auto. intros [more it'] c' _. destruct more; auto. apply bind_ext; auto. intros _ c2 _. apply bind_ext; auto.
Qed.

Theorem C54_same_on_library : forall q c, genc (of_lib q) c = enc q c.
Proof.
  assert (N : forall q, g_nil (of_lib q) = is_nil q) by (destruct q; reflexivity).
  induction q as [|a|q IH|q1 IH1 q2 IH2|q1 IH1 q2 IH2|v q IH|k q IH]; intros c; cbn [of_lib genc enc]; auto; rewrite ?N; apply wrap_ext.
  - destruct (is_nil q); auto. apply bind_ext; auto.
  - destruct (is_nil q1), (is_nil q2); auto. apply bind_ext; [now apply wrap_ext|]. intros f1 c1 _. apply bind_ext; [now apply wrap_ext|]. auto.
  - destruct (is_nil q1), (is_nil q2); auto. apply bind_ext; [now apply wrap_ext|]. intros f1 c1 _. apply bind_ext; [now apply wrap_ext|]. auto.
  - destruct (is_nil q); auto. apply bind_ext; auto. intros _ c1 _. apply bind_ext; auto. intros f1 c2 _. apply bind_ext; auto.
  - destruct (is_nil q); auto. apply bind_ext; auto. intros _ c1 _. apply defer_ext. apply bind_ext; auto. intros it c2 _. now apply loop_ext.
Qed.
Print Assumptions C54_same_on_library.

(* ---- what components from outside do to the context ---- *)

Definition below (K : list Z) (vm : varman) : Prop := Forall (fun n => 1 <= n <= vm_topv vm) K.
Lemma below_ext : forall K vm vm', vm_topv vm <= vm_topv vm' -> below K vm -> below K vm'.
Proof. intros K vm vm' H. apply Forall_impl. intros n Hn. lia. Qed.

Lemma keeps_safe : forall p K, keeps K p -> safe (below K) bounded (run_comp p).
Proof.
  induction p as [ss cs|b|e| |t k IH|t k IH|k IH|v k IH|x k IH|k IH]; intros K H c r c' G HK E N; cbn [run_comp] in E.
  - injection E as <- <-. split; [now apply evolves_refl|]. intros f [= <-].
    assert (T0 : 0 <= vm_topv (cVM c)) by apply G.
    assert (B : forall X, (X = ss \/ X = cs) -> clauses_bound (vm_topv (cVM c)) X).
    { intros X HX. apply Forall_forall. intros cl Hc. apply Forall_forall. intros l Hl. unfold below in HK. rewrite Forall_forall in HK.
      assert (L : 1 <= Z.abs l <= vm_topv (cVM c)). { apply HK, (H cl l); auto. apply in_or_app. destruct HX as [-> | ->]; auto. } lia. }
    assert (W : forall X, (X = ss \/ X = cs) -> legal_clauses X).
    { intros X HX. specialize (B X HX). unfold legal_clauses, clauses_bound, clause_bound in *. eapply Forall_impl; [|exact B]. intros cl. apply Forall_impl. intros l. tauto. }
    split.
    + apply wf_AppendConsistency; auto. apply wf_AppendSemantics; auto. apply wf_True.
    + cbn [AppendConsistency AppendSemantics tv TrueCNF]. rewrite !maxInt_spec.
      pose proof (maxVar_least ss _ T0 (B ss (or_introl eq_refl))). pose proof (maxVar_least cs _ T0 (B cs (or_intror eq_refl))). lia.
  - injection E as <- <-. split; [now apply evolves_refl|]. intros f [= <-]. split; [destruct b; [apply wf_True|apply wf_False]|]. destruct b; simpl; apply G.
  - injection E as <- <-. split; [now apply evolves_refl|]. discriminate.
  - injection E as <- <-. split; [now apply evolves_refl|]. discriminate.
  - destruct (CNFVar (cVM c) t) as [n vm'] eqn:EV. destruct c as [s vm m]. cbn [cVM set_vm] in *. destruct G as [I J]. cbn [cVM cScoper] in *.
    destruct (CNFVar_spec _ _ _ _ I EV) as (A & B & L & _).
    assert (G' : good_ctx (mkCtx s vm' m)) by (split; auto).
    pose proof (proj1 (proj2 A) _ _ L) as Hn. assert (K' : below (n :: K) vm').
    { constructor; [|eapply below_ext; [apply B|exact HK]]. apply (proj1 (proj2 A) _ _ L). }
    destruct (IH n (n :: K) (H n ltac:(lia)) _ r c' G' K' E N) as [V Q]. split; auto. eapply evolves_trans; [|exact V]. now apply evolves_vm.
  - exact (IH _ K (H _) c r c' G HK E N).
  - exact (IH _ K (H _) c r c' G HK E N).
  - unfold bind, m_ScopeVar in E. rewrite ScopeVar_ok in E by apply G. exact (IH _ K (H _) c r c' G HK E N).
  - exact (IH _ K (H _) c r c' G HK E N).
  - exact (IH _ K (H _) c r c' G HK E N).
Qed.

Definition all_keep (q : gquery) : Prop := Forall (keeps []) (outside q).

Theorem safe_genc : forall q, all_keep q -> safe anything bounded (genc q).
Proof.
  unfold all_keep.
  induction q as [|a|p|q IH|q1 IH1 q2 IH2|q1 IH1 q2 IH2|v q IH|c q IH]; intros HK; cbn [genc outside] in *; try specialize (IH HK);
    try (apply Forall_app in HK as [HK1 HK2]; specialize (IH1 HK1); specialize (IH2 HK2)).
  - intros c r c' G _ E N. injection E as <- <-. split; [now apply evolves_refl|discriminate].
  - apply safe_enc_atom.
  - inversion HK as [|? ? H _]; subst. eapply safe_weaken; [apply (keeps_safe p [] H)|intros; constructor|auto].
  - apply safe_wrap. destruct (g_nil q); [apply safe_fail|]. eapply safe_bind; [apply IH|]. intros f. apply safe_Negate.
  - apply safe_wrap. destruct (g_nil q1); [apply safe_fail|]. destruct (g_nil q2); [apply safe_fail|].
    eapply safe_bind; [apply safe_wrap, IH1|]. intros f1.
    eapply safe_bind.
    { eapply safe_weaken; [apply (safe_frame _ (wrap "Q2" (genc q2)) anything bounded (bounded f1)); [intros; eapply bounded_ext; eauto|apply safe_wrap, IH2]| |].
      - intros vm H. split; [exact Logic.I|exact H].
      - intros f2 vm H. exact H. }
    intros f2. cbn beta. apply safe_ret. intros vm [H1 H2]. now apply bounded_Conj.
  - apply safe_wrap. destruct (g_nil q1); [apply safe_fail|]. destruct (g_nil q2); [apply safe_fail|].
    eapply safe_bind; [apply safe_wrap, IH1|]. intros f1.
    eapply safe_bind.
    { eapply safe_weaken; [apply (safe_frame _ (wrap "Q2" (genc q2)) anything bounded (bounded f1)); [intros; eapply bounded_ext; eauto|apply safe_wrap, IH2]| |].
      - intros vm H. split; [exact Logic.I|exact H].
      - intros f2 vm H. exact H. }
    intros f2. cbn beta.
    eapply safe_bind.
    { eapply safe_weaken; [apply (safe_frame _ (m_Negate f1) (bounded f1) bounded (bounded f2)); [intros; eapply bounded_ext; eauto|apply safe_Negate]| |].
      - intros vm [H1 H2]. split; assumption.
      - intros g vm H. exact H. }
    intros g1. cbn beta.
    eapply safe_bind.
    { eapply safe_weaken; [apply (safe_frame _ (m_Negate f2) (bounded f2) bounded (bounded g1)); [intros; eapply bounded_ext; eauto|apply safe_Negate]| |].
      - intros vm [H1 H2]. split; assumption.
      - intros g vm H. exact H. }
    intros g2. cbn beta. eapply safe_weaken; [apply safe_Negate| |].
    + intros vm [H1 H2]. now apply bounded_Conj.
    + auto.
  - apply safe_wrap. destruct (g_nil q); [apply safe_fail|].
    eapply safe_bind; [apply safe_AddVar|]. intros u.
    eapply safe_bind; [eapply safe_weaken; [apply safe_encodeI|intros; exact Logic.I|intros f vm H; exact H]|]. intros f1.
    eapply safe_bind.
    { eapply safe_weaken; [apply (safe_frame _ (genc q) anything bounded (bounded f1)); [intros; eapply bounded_ext; eauto|apply IH]| |].
      - intros vm H. split; [exact Logic.I|exact H].
      - intros f2 vm H. exact H. }
    intros f2. cbn beta. apply safe_ret. intros vm [H1 H2]. now apply bounded_Conj.
  - apply safe_wrap. destruct (g_nil q); [apply safe_fail|].
    intros cx r c' G _ E N. destruct (safe_all (genc q) (cID c) forall_fuel IH cx r c' G E N) as [[V _] B]. auto.
Qed.

(* The context afterwards, whatever the outcome. *)
Theorem C54_context : forall q c r c', all_keep q -> good_ctx c -> genc q c = (r, c') -> r <> Hang ->
  scopes (cScoper c') = scopes (cScoper c) /\
  (forall k, ScopeConst (cScoper c') k = ScopeConst (cScoper c) k) /\
  (forall v, slookup (svars (cScoper c)) v <> None -> ScopeVar (cScoper c') v = ScopeVar (cScoper c) v) /\
  vm_topv (cVM c) <= vm_topv (cVM c') /\
  (forall t n, vlookup (vm_vars (cVM c)) t = Some n -> vlookup (vm_vars (cVM c')) t = Some n) /\
  (forall t n, vlookup (vm_vars (cVM c')) t = Some n -> vlookup (vm_vars (cVM c)) t = None -> vm_topv (cVM c) < n) /\
  (forall t u n, vlookup (vm_vars (cVM c')) t = Some n -> vlookup (vm_vars (cVM c')) u = Some n -> t = u) /\
  (forall f, r = Ok f -> forall cl l, In cl (sClauses f ++ cClauses f) -> In l cl -> 1 <= Z.abs l <= vm_topv (cVM c')).
Proof.
  intros q c r c' K G E N. destruct (safe_genc q K c r c' G Logic.I E N) as [V B].
  pose proof (ev_scopes _ _ V) as S. destruct (ev_vm _ _ V) as (X1 & X2 & X3). destruct (ev_good _ _ V) as [(I1 & I2 & I3) _].
  split; [exact S|]. split; [intros k; unfold ScopeConst; now rewrite S|]. split.
  { destruct (ev_vars _ _ V) as (l & A1 & A2). intros v Hv. destruct (slookup (svars (cScoper c)) v) as [n|] eqn:Es; [|congruence].
    apply (ScopeVar_recorded _ _ v n); auto. rewrite A1, slookup_app. destruct (slookup l v) as [n'|] eqn:El; [|exact Es].
    exfalso. apply slookup_In in El. rewrite Forall_forall in A2. destruct (A2 _ El) as (_ & _ & X). cbn [fst] in X. congruence. }
  split; [exact X1|]. split; [exact X2|]. split; [exact X3|]. split; [intros t u n; apply I3|].
  intros f Hf cl l Hc Hl. destruct (B f Hf) as [(_ & W1 & W2) T].
  assert (Y : forall cls, clauses_bound (tv f) cls -> In cl cls -> 1 <= Z.abs l <= tv f).
  { intros cls H Hin. unfold clauses_bound in H. rewrite Forall_forall in H. specialize (H cl Hin). unfold clause_bound in H. rewrite Forall_forall in H.
    specialize (H l Hl). lia. }
  apply in_app_or in Hc as [Hc|Hc]; [pose proof (Y _ W1 Hc)|pose proof (Y _ W2 Hc)]; lia.
Qed.
Print Assumptions C54_context.

(* ---- what the formula says ---- *)

(* Specification: the formulas the components gave, put together. *)
Inductive bf := BLeaf (f : CNF) | BNeg (b : bf) | BBoth (a b : bf).
Fixpoint leaves (b : bf) : list CNF :=
  match b with BLeaf f => [f] | BNeg b => leaves b | BBoth a b => leaves a ++ leaves b end.
Fixpoint bval (r : valuation) (b : bf) : bool :=
  match b with BLeaf f => Sem r f | BNeg b => negb (bval r b) | BBoth a b => bval r a && bval r b end.
Definition BOr (a b : bf) : bf := BNeg (BBoth (BNeg a) (BNeg b)).

(* what the iterator of a quantifier goes through *)
Inductive visits : iter -> list inst -> Prop :=
| V_end : forall it it', Next it = Ok (false, it') -> visits it []
| V_more : forall it it' l, Next it = Ok (true, it') -> visits it' l -> visits it (it_t it' :: l).

Definition gives (m : model) (s : scoper) (u : M CNF) (f : CNF) : Prop :=
  exists vm vm', vm_inv vm /\ u (mkCtx s vm m) = (Ok f, mkCtx s vm' m).

Inductive shape (m : model) : gquery -> scoper -> bf -> scoper -> Prop :=
| Sh_lib : forall a s f, gives m s (enc_atom a) f -> shape m (GLib a) s (BLeaf f) s
| Sh_out : forall p s f, gives m s (run_comp p) f -> shape m (GOut p) s (BLeaf f) s
| Sh_not : forall q s b s', shape m q s b s' -> shape m (GNot q) s (BNeg b) s'
| Sh_and : forall q1 q2 s b1 s1 b2 s2, shape m q1 s b1 s1 -> shape m q2 s1 b2 s2 -> shape m (GAnd q1 q2) s (BBoth b1 b2) s2
| Sh_or : forall q1 q2 s b1 s1 b2 s2, shape m q1 s b1 s1 -> shape m q2 s1 b2 s2 -> shape m (GOr q1 q2) s (BOr b1 b2) s2
| Sh_with : forall v q s f b s', gives m (AddVar s v) (encodeI v) f -> shape m q (AddVar s v) b s' ->
    shape m (GWith v q) s (BBoth (BLeaf f) b) s'
| Sh_all : forall k q s it l b s', newNodeAsValuesIter (Dim m) (Nodes m) = Ok it -> visits it l ->
    shapes m q l 0 (AddScope s (cID k)) (BLeaf TrueCNF) b s' -> shape m (GAll k q) s b s
with shapes (m : model) : gquery -> list inst -> Z -> scoper -> bf -> bf -> scoper -> Prop :=
| Shs_nil : forall q i s acc, shapes m q [] i s acc acc s
| Shs_cons : forall q e l i s acc b s1 b' s2, shape m q (snd (SetScope s i e)) b s1 ->
    shapes m q l (i + 1) s1 (BBoth acc b) b' s2 -> shapes m q (e :: l) i s acc b' s2.

(* every literal is the number of a triple *)
Definition named (vm : varman) (f : CNF) : Prop :=
  forall cl l, In cl (sClauses f ++ cClauses f) -> In l cl -> exists t, vlookup (vm_vars vm) t = Some (Z.abs l).
Definition same_named (vm : varman) (r r' : valuation) : Prop := forall t n, vlookup (vm_vars vm) t = Some n -> r' n = r n.

Lemma named_ext : forall vm vm' f, vm_ext vm vm' -> named vm f -> named vm' f.
Proof. intros vm vm' f (_ & X & _) H cl l H1 H2. destruct (H cl l H1 H2) as (t & L). exists t. auto. Qed.
Lemma clauses_same : forall r r' cls, (forall cl l, In cl cls -> In l cl -> r (Z.abs l) = r' (Z.abs l)) -> clauses_true r cls = clauses_true r' cls.
Proof.
  assert (L : forall r r' l, r (Z.abs l) = r' (Z.abs l) -> lit_true r l = lit_true r' l).
  { intros r r' l H. unfold lit_true. destruct (Z.ltb_spec 0 l); [rewrite Z.abs_eq in H by lia|rewrite Z.abs_neq in H by lia]; now rewrite H. }
  assert (C : forall r r' cl, (forall l, In l cl -> r (Z.abs l) = r' (Z.abs l)) -> clause_true r cl = clause_true r' cl).
  { intros r r' cl. unfold clause_true. induction cl as [|l cl IH]; intros H; auto. cbn [existsb]. f_equal; [apply L, H; now left|]. apply IH. intros. apply H. now right. }
  intros r r' cls. unfold clauses_true. induction cls as [|cl cls IH]; intros H; auto. cbn [forallb]. f_equal.
  - apply C. intros l Hl. apply (H cl l); auto. now left.
  - apply IH. intros cl' l Hc Hl. apply (H cl' l); auto. now right.
Qed.
Lemma named_same : forall vm f r r', named vm f -> same_named vm r r' -> Sem r' f = Sem r f /\ Con r' f = Con r f.
Proof.
  intros vm f r r' H S. split; apply clauses_same; intros cl l Hc Hl; (destruct (H cl l) as (t & L); [apply in_or_app; auto|auto|apply (S t _ L)]).
Qed.
Lemma bval_same : forall vm r r', same_named vm r r' -> forall b, Forall (named vm) (leaves b) -> bval r' b = bval r b.
Proof.
  intros vm r r' S. induction b as [f|b IH|a IHa b IHb]; cbn [leaves bval]; intros H.
  - inversion H; subst. now apply (named_same vm).
  - f_equal. auto.
  - apply Forall_app in H as [H1 H2]. f_equal; auto.
Qed.
Lemma con_same : forall vm r r', same_named vm r r' -> forall l, Forall (named vm) l -> Forall (fun f => Con r f = true) l -> Forall (fun f => Con r' f = true) l.
Proof.
  intros vm r r' S l N H. rewrite Forall_forall in *. intros f Hf. rewrite (proj2 (named_same vm f r r' (N f Hf) S)). auto.
Qed.

Definition reads (vm vm' : varman) (g : CNF) (b : bf) : Prop :=
  vm_inv vm' /\ vm_ext vm vm' /\ bounded g vm' /\ Forall (named vm') (leaves b) /\
  (forall r, Con r g = true -> Forall (fun f => Con r f = true) (leaves b) /\ Sem r g = bval r b) /\
  (forall r, Forall (fun f => Con r f = true) (leaves b) ->
     exists r', agree (vm_topv vm) r r' /\ (forall n, vm_topv vm' < n -> r' n = r n) /\ same_named vm' r r' /\ Con r' g = true).

Lemma reads_leaf : forall vm vm' f, vm_inv vm' -> vm_ext vm vm' -> bounded f vm' -> named vm' f -> reads vm vm' f (BLeaf f).
Proof.
  intros vm vm' f I X B N. split; auto. split; auto. split; auto. split; [now constructor|]. split.
  - intros r H. split; [now constructor|reflexivity].
  - intros r H. exists r. split; [apply agree_refl|]. split; [auto|]. split; [intros t n _; reflexivity|]. now inversion H.
Qed.
Lemma named_later : forall vm vm' t n, vm_inv vm -> vm_ext vm vm' -> vlookup (vm_vars vm') t = Some n -> n <= vm_topv vm -> vlookup (vm_vars vm) t = Some n.
Proof.
  intros vm vm' t n I (X1 & X2 & X3) L H. destruct (vlookup (vm_vars vm) t) as [k|] eqn:E.
  - pose proof (X2 t k E). congruence.
  - pose proof (X3 t n L E). lia.
Qed.
Lemma reads_both : forall v0 v1 v2 f1 b1 f2 b2, vm_inv v0 -> reads v0 v1 f1 b1 -> reads v1 v2 f2 b2 ->
  reads v0 v2 (Conjunction f1 f2) (BBoth b1 b2).
Proof.
  intros v0 v1 v2 f1 b1 f2 b2 I0 (I1 & X1 & B1 & N1 & S1 & C1) (I2 & X2 & B2 & N2 & S2 & C2).
  assert (N12 : Forall (named v2) (leaves b1)) by (eapply Forall_impl; [|exact N1]; intros f; apply named_ext; exact X2).
  split; auto. split; [eapply vm_ext_trans; eauto|]. split; [apply bounded_Conj; auto; eapply bounded_ext; eauto|].
  split; [cbn [leaves]; apply Forall_app; auto|]. split.
  - intros r. rewrite Con_Conjunction, Sem_Conjunction, andb_true_iff. intros [A B]. destruct (S1 r A) as [P1 P2]. destruct (S2 r B) as [Q1 Q2].
    split; [cbn [leaves]; apply Forall_app; auto|]. cbn [bval]. congruence.
  - intros r H. cbn [leaves] in H. apply Forall_app in H as [H1 H2]. destruct (C1 r H1) as (r1 & A1 & A2 & A3 & A4).
    assert (S3 : same_named v2 r r1).
    { intros t n L. destruct (Z_le_gt_dec n (vm_topv v1)) as [Le|Gt]; [apply (A3 t n); eapply named_later; eauto|apply A2; lia]. }
    destruct (C2 r1 (con_same v2 r r1 S3 _ N2 H2)) as (r2 & D1 & D2 & D3 & D4).
    exists r2. split; [eapply agree_trans; [exact A1|]; eapply agree_weaken; [apply X1|exact D1]|].
    split; [intros n Hn; rewrite D2 by auto; apply A2; destruct X2; lia|].
    split; [intros t n L; rewrite (D3 t n L); apply (S3 t n L)|].
    rewrite Con_Conjunction, D4. rewrite <- (Con_agree (vm_topv v1) r1 r2 f1 (proj1 B1) (proj2 B1) D1). now rewrite A4.
Qed.
(* a further formula whose own variables belong to no triple *)
Lemma reads_step : forall v0 vm vm' f b g b', reads v0 vm f b -> vm_inv vm' -> vm_ext vm vm' -> vm_vars vm' = vm_vars vm -> bounded g vm' -> leaves b' = leaves b ->
  (forall r, Con r g = true -> Con r f = true /\ Sem r g = bval r b') ->
  (forall r, Con r f = true -> exists r', agree (vm_topv vm) r r' /\ Con r' g = true) -> reads v0 vm' g b'.
Proof.
  intros v0 vm vm' f b g b' (I & X & B & N & S & C) I' X' Vv B' Lv N6 N7.
  split; [exact I'|]. split; [eapply vm_ext_trans; eauto|]. split; [exact B'|].
  split; [rewrite Lv; eapply Forall_impl; [|exact N]; intros x; apply named_ext; exact X'|]. split.
  - intros r H. destruct (N6 r H) as [A1 A2]. rewrite Lv. split; [apply S, A1|exact A2].
  - intros r H. rewrite Lv in H. destruct (C r H) as (r1 & A1 & A2 & A3 & A4). destruct (N7 r1 A4) as (r2 & D1 & D2).
    exists (fun n => if n <=? vm_topv vm' then r2 n else r n).
    assert (AG : agree (vm_topv vm) r1 (fun n => if n <=? vm_topv vm' then r2 n else r n)).
    { intros n Hn. cbv beta. destruct (Z.leb_spec n (vm_topv vm')); [now apply D1|destruct X'; lia]. }
    split; [|split; [|split]].
    + eapply agree_trans; [exact A1|]. eapply agree_weaken; [apply X|exact AG].
    + intros n Hn. destruct (Z.leb_spec n (vm_topv vm')); [lia|reflexivity].
    + intros t n L. rewrite Vv in L. pose proof (proj1 (proj2 I) t n L) as Hn. rewrite <- AG by lia. apply (A3 t n L).
    + rewrite <- D2. symmetry. apply (Con_agree (vm_topv vm')); [apply B'|apply B'|]. intros n Hn. cbv beta. destruct (Z.leb_spec n (vm_topv vm')); [reflexivity|lia].
Qed.
Lemma mk_good : forall s vm m, vm_inv vm -> sc_inv s -> good_ctx (mkCtx s vm m).
Proof. intros s vm m I J. split; auto. Qed.
Lemma Negate_ctx : forall f s vm m g c', m_Negate f (mkCtx s vm m) = (Ok g, c') -> c' = mkCtx s (cVM c') m.
Proof. intros f s vm m g c' E. rewrite neg_m in E. apply pair_equal_spec in E as [_ E]. now rewrite <- E. Qed.
Lemma reads_neg : forall v0 s vm m f b g c', reads v0 vm f b -> sc_inv s -> m_Negate f (mkCtx s vm m) = (Ok g, c') ->
  exists vm', c' = mkCtx s vm' m /\ reads v0 vm' g (BNeg b).
Proof.
  intros v0 s vm m f b g c' R J E.
  destruct (neg_step f (mkCtx s vm m) g c' (mk_good _ _ _ (proj1 R) J) (proj1 (proj2 (proj2 R))) E) as (V & B' & Vv & N6 & N7). cbn [cVM] in *.
  exists (cVM c'). split; [eapply Negate_ctx; eauto|].
  apply (reads_step v0 vm (cVM c') f b g (BNeg b) R); auto; [apply V|apply (ev_vm _ _ V)|].
  intros r H. destruct (N6 r H) as [A1 A2]. split; auto. cbn [bval]. rewrite A2. f_equal. apply R, A1.
Qed.
Lemma reads_or : forall v0 v1 s vm m f1 b1 f2 b2 g1 c3 g2 c4 g c', vm_inv v0 -> reads v0 v1 f1 b1 -> reads v1 vm f2 b2 -> sc_inv s ->
  m_Negate f1 (mkCtx s vm m) = (Ok g1, c3) -> m_Negate f2 c3 = (Ok g2, c4) -> m_Negate (Conjunction g1 g2) c4 = (Ok g, c') ->
  exists vm', c' = mkCtx s vm' m /\ reads v0 vm' g (BOr b1 b2).
Proof.
  intros v0 v1 s vm m f1 b1 f2 b2 g1 c3 g2 c4 g c' I0 R1 R2 J E3 E4 E.
  pose proof (reads_both _ _ _ _ _ _ _ I0 R1 R2) as RB.
  assert (B12 : bounded f1 vm) by (eapply bounded_ext; [apply R2|apply R1]). assert (B2 : bounded f2 vm) by apply R2.
  pose proof (mk_good s vm m (proj1 R2) J) as G2.
  destruct (neg_step f1 _ g1 c3 G2 B12 E3) as (V3 & B3 & W3 & N6 & N7).
  pose proof (bounded_ext _ _ _ (ev_vm _ _ V3) B2) as B23.
  destruct (neg_step f2 c3 g2 c4 (ev_good _ _ V3) B23 E4) as (V4 & B4 & W4 & L6 & L7).
  pose proof (bounded_Conj _ _ _ (bounded_ext _ _ _ (ev_vm _ _ V4) B3) B4) as BC.
  destruct (neg_step _ c4 g c' (ev_good _ _ V4) BC E) as (V5 & B5 & W5 & K6 & K7). cbn [cVM] in *.
  pose proof (Negate_ctx _ _ _ _ _ _ E3) as X3. rewrite X3 in E4. pose proof (Negate_ctx _ _ _ _ _ _ E4) as X4. rewrite X4 in E. pose proof (Negate_ctx _ _ _ _ _ _ E) as X5.
  exists (cVM c'). split; [exact X5|].
  assert (VM : vm_ext vm (cVM c')) by (eapply vm_ext_trans; [apply (ev_vm _ _ V3)|]; eapply vm_ext_trans; [apply (ev_vm _ _ V4)|apply (ev_vm _ _ V5)]).
  apply (reads_step v0 vm (cVM c') (Conjunction f1 f2) (BBoth b1 b2) g (BOr b1 b2) RB); auto; [apply V5|congruence| |].
  - intros r Hr. destruct (K6 r Hr) as [A1 A2]. rewrite Con_Conjunction, andb_true_iff in A1. destruct A1 as [A1 A3].
    rewrite Sem_Conjunction in A2. destruct (N6 r A1) as [X1 X2]. destruct (L6 r A3) as [Y1 Y2].
    split; [rewrite Con_Conjunction, X1, Y1; reflexivity|]. cbn [bval BOr]. rewrite A2, X2, Y2.
    assert (S1 : Sem r f1 = bval r b1) by (apply R1, X1). assert (S2 : Sem r f2 = bval r b2) by (apply R2, Y1). now rewrite S1, S2.
  - intros r H. rewrite Con_Conjunction, andb_true_iff in H. destruct H as [H1 H2]. destruct (N7 r H1) as (r1 & Q1 & Q2).
    assert (C2 : Con r1 f2 = true).
    { rewrite (Con_agree (vm_topv vm) r1 r f2); [exact H2|apply B2|apply B2|apply agree_sym; exact Q1]. }
    destruct (L7 r1 C2) as (r2 & Q3 & Q4).
    assert (C3 : Con r2 g1 = true).
    { rewrite (Con_agree _ r2 r1 _ (proj1 B3) (proj2 B3) (agree_sym _ _ _ Q3)); exact Q2. }
    destruct (K7 r2) as (r3 & Q5 & Q6); [rewrite Con_Conjunction, C3, Q4; reflexivity|].
    exists r3. split; [|exact Q6]. eapply agree_trans; [exact Q1|]. eapply agree_trans; [eapply agree_weaken; [|exact Q3]; apply (ev_vm _ _ V3)|].
    eapply agree_weaken; [|exact Q5]. apply (vm_ext_trans _ _ _ (ev_vm _ _ V3) (ev_vm _ _ V4)).
Qed.

(* ---- the leaves are named ---- *)
Lemma keeps_named : forall p K s vm m f c', vm_inv vm -> sc_inv s -> keeps K p ->
  (forall n, In n K -> exists t, vlookup (vm_vars vm) t = Some n) -> run_comp p (mkCtx s vm m) = (Ok f, c') ->
  exists vm', c' = mkCtx s vm' m /\ named vm' f.
Proof.
  induction p as [ss cs|b|e| |t k IH|t k IH|k IH|v k IH|x k IH|k IH]; intros K s vm m f c' I J H HK E; cbn [run_comp] in E; cbn [keeps] in H.
  - injection E as <- <-. exists vm. split; auto. intros cl l Hc Hl. apply HK, (H cl l); auto.
  - injection E as <- <-. exists vm. split; auto. destruct b; intros cl l Hc Hl; [contradiction|]. destruct Hc as [<-|[]]. contradiction.
  - discriminate.
  - discriminate.
  - cbn [cVM] in E. destruct (CNFVar vm t) as [n vm1] eqn:EV. destruct (CNFVar_spec _ _ _ _ I EV) as (A & B & L & _).
    pose proof (proj1 (proj2 A) _ _ L) as Hp. apply (IH n (n :: K) s vm1 m f c' A J (H n ltac:(lia))); auto. intros n' [<-|Hn]; [eauto|]. destruct (HK n' Hn) as (t' & L'). exists t'. apply B, L'.
  - eapply IH; eauto.
  - eapply IH; eauto.
  - unfold bind, m_ScopeVar in E. cbn [cScoper] in E. rewrite ScopeVar_ok in E by auto. eapply IH; eauto.
  - eapply IH; eauto.
  - eapply IH; eauto.
Qed.

Definition named_cls (vm : varman) (cls : list clause) : Prop := forall cl l, In cl cls -> In l cl -> exists t, vlookup (vm_vars vm) t = Some (Z.abs l).
Lemma alloc_clause_named : forall cl vm cl' vm', vm_inv vm -> alloc_clause vm cl = (cl', vm') ->
  forall l, In l cl' -> exists t, vlookup (vm_vars vm') t = Some (Z.abs l).
Proof.
  induction cl as [|[s u] cl IH]; intros vm cl' vm' I E l Hl; cbn [alloc_clause] in E.
  - injection E as <- <-. contradiction.
  - destruct (CNFVar vm u) as [n vm1] eqn:E1. destruct (alloc_clause vm1 cl) as [r' vm2] eqn:E2. injection E as <- <-.
    destruct (grows_CNFVar _ _ _ _ I E1) as [G L]. destruct (alloc_clause_spec _ _ _ _ (proj1 G) E2) as (G2 & _).
    destruct Hl as [<-|Hl]; [|exact (IH vm1 r' vm2 (proj1 G) E2 l Hl)]. exists u. pose proof (proj1 (proj2 (proj1 G)) u n L).
    replace (Z.abs (if s then n else - n)) with n by (destruct s; lia). now apply G2.
Qed.
Lemma alloc_clauses_named : forall cls vm cls' vm', vm_inv vm -> alloc_clauses vm cls = (cls', vm') -> named_cls vm' cls'.
Proof.
  induction cls as [|cl cls IH]; intros vm cls' vm' I E; cbn [alloc_clauses] in E.
  - injection E as <- <-. intros cl l [].
  - destruct (alloc_clause vm cl) as [c1 vm1] eqn:E1. destruct (alloc_clauses vm1 cls) as [r' vm2] eqn:E2. injection E as <- <-.
    destruct (alloc_clause_spec _ _ _ _ I E1) as (G & _). destruct (alloc_clauses_spec _ _ _ _ (proj1 G) E2) as (G2 & _).
    intros cl' l [<-|Hc] Hl; [|exact (IH vm1 r' vm2 (proj1 G) E2 cl' l Hc Hl)]. destruct (alloc_clause_named _ _ _ _ I E1 l Hl) as (t & L). exists t. now apply G2.
Qed.
Lemma run_emits_named : forall es vm, vm_inv vm -> named (snd (run_emits vm es)) (fst (run_emits vm es)).
Proof.
  intros es vm I. unfold run_emits.
  assert (G : forall es cv, vm_inv (snd cv) -> named (snd cv) (fst cv) -> let cv' := fold_left run_emit es cv in named (snd cv') (fst cv')).
  { clear. induction es as [|e es IH]; intros [f vm] I N; cbn [fold_left fst snd] in *; auto. cbv zeta in IH. 
    assert (St : vm_inv (snd (run_emit (f, vm) e)) /\ named (snd (run_emit (f, vm) e)) (fst (run_emit (f, vm) e))).
    { destruct e as [ll|cls|cls|cls]; cbn [run_emit].
      - pose proof (alloc_vars_spec ll vm I) as G. split; [apply G|]. eapply named_ext; [apply G|exact N].
      - destruct (alloc_clauses vm cls) as [cls' vm1] eqn:E. destruct (alloc_clauses_spec _ _ _ _ I E) as (G & _). pose proof (alloc_clauses_named _ _ _ _ I E) as C.
        split; [apply G|]. intros cl l Hc Hl. cbn [fst FromClauses sClauses cClauses] in Hc. rewrite app_nil_r in Hc. eapply C; eauto.
      - destruct (alloc_clauses vm cls) as [cls' vm1] eqn:E. destruct (alloc_clauses_spec _ _ _ _ I E) as (G & _). pose proof (alloc_clauses_named _ _ _ _ I E) as C.
        split; [apply G|]. intros cl l Hc Hl. cbn [fst snd AppendSemantics sClauses cClauses] in *.
        assert (N' : named vm1 f) by (eapply named_ext; [apply G|exact N]). rewrite <- app_assoc in Hc. apply in_app_or in Hc as [Hc|Hc]; [apply (N' cl l); auto; apply in_or_app; auto|].
        apply in_app_or in Hc as [Hc|Hc]; [eapply C; eauto|apply (N' cl l); auto; apply in_or_app; auto].
      - destruct (alloc_clauses vm cls) as [cls' vm1] eqn:E. destruct (alloc_clauses_spec _ _ _ _ I E) as (G & _). pose proof (alloc_clauses_named _ _ _ _ I E) as C.
        split; [apply G|]. intros cl l Hc Hl. cbn [fst snd AppendConsistency sClauses cClauses] in *.
        assert (N' : named vm1 f) by (eapply named_ext; [apply G|exact N]). rewrite app_assoc in Hc. apply in_app_or in Hc as [Hc|Hc]; [apply (N' cl l); auto|].
        eapply C; eauto. }
    destruct (run_emit (f, vm) e) as [f' vm']. cbn [fst snd] in St. apply IH; apply St. }
  apply (G es (TrueCNF, vm)); auto. intros cl l [].
Qed.

Lemma atom_leaf : forall a s vm m f c', vm_inv vm -> sc_inv s -> enc_atom a (mkCtx s vm m) = (Ok f, c') ->
  exists vm', c' = mkCtx s vm' m /\ named vm' f.
Proof.
  intros a s vm m f c' I J E. unfold enc_atom in E. destruct (atom_enc (mkCtx s vm m) a) as [[b|es]|e| |]; try discriminate.
  - injection E as <- <-. exists vm. split; auto. destruct b; intros cl l Hc Hl; [contradiction|]. destruct Hc as [<-|[]]. contradiction.
  - pose proof (run_emits_named es vm I) as N. cbn [cVM] in E. destruct (run_emits vm es) as [f' vm']. injection E as <- <-. exists vm'. auto.
Qed.
Lemma encodeI_leaf : forall v s vm m f c', vm_inv vm -> sc_inv s -> encodeI v (mkCtx s vm m) = (Ok f, c') ->
  exists vm', c' = mkCtx s vm' m /\ named vm' f.
Proof.
  intros v s vm m f c' I J E. unfold encodeI, bind, m_ScopeVar in E. cbn [cScoper] in E. rewrite ScopeVar_ok in E by auto. cbn [cVM cModel] in E.
  destruct (CNFVarExists _ _).
  - injection E as <- <-. exists vm. split; auto. intros cl l [].
  - match type of E with context[run_emits vm ?es] => pose proof (run_emits_named es vm I) as N end.
    destruct (run_emits _ _) as [f' vm']. injection E as <- <-. exists vm'. auto.
Qed.

Definition well_read (q : gquery) : Prop := forall s vm m g c', vm_inv vm -> sc_inv s -> genc q (mkCtx s vm m) = (Ok g, c') ->
  exists b s' vm', c' = mkCtx s' vm' m /\ sc_inv s' /\ shape m q s b s' /\ reads vm vm' g b.

Lemma loop_reads : forall q, well_read q -> forall v0 m fuel it i acc bacc s vm g c',
  vm_inv v0 -> sc_inv s -> reads v0 vm acc bacc ->
  forall_loop fuel (genc q) it i acc (mkCtx s vm m) = (Ok g, c') ->
  exists l b s' vm', c' = mkCtx s' vm' m /\ sc_inv s' /\ visits it l /\ shapes m q l i s bacc b s' /\ reads v0 vm' g b.
Proof.
  intros q W v0 m fuel. induction fuel as [|fuel IH]; intros it i acc bacc s vm g c' I0 J R E; cbn [forall_loop] in E; [discriminate|].
  apply bind_inv in E as ([more it1] & cx & E1 & E). unfold lift in E1. apply pair_equal_spec in E1 as [E1 <-]. destruct more.
  - apply bind_inv in E as ([] & c1 & E2 & E). unfold m_SetScope in E2. cbn [cScoper] in E2.
    pose proof (sc_inv_SetScope s i (it_t it1) J) as J1. unfold set_scope in J1.
    destruct (SetScope s i (it_t it1)) as [er s1] eqn:ES. cbn [snd] in J1. assert (c1 = mkCtx s1 vm m) as -> by (unfold set_scoper in E2; cbn [cVM cModel] in E2; congruence).
    apply bind_inv in E as (f2 & c2 & E3 & E). destruct (W s1 vm m f2 c2 (proj1 R) J1 E3) as (b2 & s2 & vm2 & -> & J2 & Sh & R2).
    destruct (IH it1 (i + 1) (Conjunction acc f2) (BBoth bacc b2) s2 vm2 g c' I0 J2) as (l & b & s' & vm' & -> & J' & Vl & Shs & R'); auto.
    { eapply reads_both; eauto. }
    exists (it_t it1 :: l), b, s', vm'. split; auto. split; auto. split; [econstructor; eauto|]. split; auto.
    econstructor; [rewrite ES; exact Sh|exact Shs].
  - injection E as <- <-. exists [], bacc, s, vm. split; auto. split; auto. split; [econstructor; eauto|]. split; [constructor|auto].
Qed.

Lemma reads_true : forall vm, vm_inv vm -> reads vm vm TrueCNF (BLeaf TrueCNF).
Proof.
  intros vm I. apply reads_leaf; auto; [apply vm_ext_refl|split; [apply wf_True|apply I]|]. intros cl l [].
Qed.

Theorem genc_reads : forall q, all_keep q -> well_read q.
Proof.
  unfold all_keep. induction q as [|a|p|q IH|q1 IH1 q2 IH2|q1 IH1 q2 IH2|v q IH|k q IH]; intros HK s vm m g c' I J E; cbn [genc outside] in *;
    try specialize (IH HK); try (apply Forall_app in HK as [HK1 HK2]; specialize (IH1 HK1); specialize (IH2 HK2)).
  - discriminate.
  - destruct (atom_leaf _ _ _ _ _ _ I J E) as (vm' & -> & N). destruct (safe_enc_atom a _ _ _ (mk_good _ _ _ I J) Logic.I E) as [V B]; [discriminate|].
    exists (BLeaf g), s, vm'. split; auto. split; auto. split; [constructor; exists vm, vm'; auto|]. exact (reads_leaf _ _ _ (proj1 (ev_good _ _ V)) (ev_vm _ _ V) (B _ eq_refl) N).
  - inversion HK as [|? ? H _]; subst. destruct (keeps_named p [] s vm m g c' I J H) as (vm' & -> & N); [intros n []|exact E|].
    destruct (keeps_safe p [] H _ _ _ (mk_good _ _ _ I J) (Forall_nil _) E) as [V B]; [discriminate|].
    exists (BLeaf g), s, vm'. split; auto. split; auto. split; [constructor; exists vm, vm'; auto|]. exact (reads_leaf _ _ _ (proj1 (ev_good _ _ V)) (ev_vm _ _ V) (B _ eq_refl) N).
  - apply wrap_inv in E. destruct (g_nil q); [discriminate|]. apply bind_inv in E as (f & c1 & E1 & E).
    destruct (IH s vm m f c1 I J E1) as (b & s1 & vm1 & -> & J1 & Sh & R). destruct (reads_neg _ _ _ _ _ _ _ _ R J1 E) as (vm' & -> & R').
    exists (BNeg b), s1, vm'. split; auto. split; auto. split; [now constructor|exact R'].
  - apply wrap_inv in E. destruct (g_nil q1); [discriminate|]. destruct (g_nil q2); [discriminate|].
    apply bind_inv in E as (f1 & c1 & E1 & E). apply wrap_inv in E1. apply bind_inv in E as (f2 & c2 & E2 & E). apply wrap_inv in E2. injection E as <- <-.
    destruct (IH1 s vm m f1 c1 I J E1) as (b1 & s1 & vm1 & -> & J1 & Sh1 & R1). destruct (IH2 s1 vm1 m f2 c2 (proj1 R1) J1 E2) as (b2 & s2 & vm2 & -> & J2 & Sh2 & R2).
    exists (BBoth b1 b2), s2, vm2. split; auto. split; auto. split; [econstructor; eauto|]. eapply reads_both; eauto.
  - apply wrap_inv in E. destruct (g_nil q1); [discriminate|]. destruct (g_nil q2); [discriminate|].
    apply bind_inv in E as (f1 & c1 & E1 & E). apply wrap_inv in E1. apply bind_inv in E as (f2 & c2 & E2 & E). apply wrap_inv in E2.
    apply bind_inv in E as (g1 & c3 & E3 & E). apply bind_inv in E as (g2 & c4 & E4 & E).
    destruct (IH1 s vm m f1 c1 I J E1) as (b1 & s1 & vm1 & -> & J1 & Sh1 & R1). destruct (IH2 s1 vm1 m f2 c2 (proj1 R1) J1 E2) as (b2 & s2 & vm2 & -> & J2 & Sh2 & R2).
    (* the first operand in the context of the second *)
    assert (HC : exists vm', c' = mkCtx s2 vm' m /\ reads vm vm' g (BOr b1 b2)).
    { eapply reads_or; eauto. }
    destruct HC as (vm' & -> & R'). exists (BOr b1 b2), s2, vm'. split; auto. split; auto. split; [econstructor; eauto|exact R'].
  - apply wrap_inv in E. destruct (g_nil q); [discriminate|]. apply bind_inv in E as ([] & c1 & E1 & E). unfold m_AddVar in E1.
    assert (c1 = mkCtx (AddVar s v) vm m) as -> by (unfold set_scoper in E1; cbn [cVM cModel cScoper] in E1; congruence). pose proof (sc_inv_AddVar s v J) as J1.
    apply bind_inv in E as (f1 & c2 & E2 & E). destruct (encodeI_leaf _ _ _ _ _ _ I J1 E2) as (vm2 & -> & N).
    destruct (safe_encodeI v _ _ _ (mk_good _ _ _ I J1) Logic.I E2) as [V B]; [discriminate|].
    assert (R1 : reads vm vm2 f1 (BLeaf f1)) by (exact (reads_leaf _ _ _ (proj1 (ev_good _ _ V)) (ev_vm _ _ V) (B _ eq_refl) N)).
    apply bind_inv in E as (f2 & c3 & E3 & E). injection E as <- <-. destruct (IH _ vm2 m f2 c3 (proj1 R1) J1 E3) as (b2 & s2 & vm3 & -> & J2 & Sh2 & R2).
    exists (BBoth (BLeaf f1) b2), s2, vm3. split; auto. split; auto. split; [econstructor; [exists vm, vm2; auto|exact Sh2]|]. eapply reads_both; eauto.
  - destruct (safe_genc (GAll k q) HK _ _ _ (mk_good _ _ _ I J) Logic.I E) as [V _]; [discriminate|].
    apply wrap_inv in E. destruct (g_nil q); [discriminate|].
    destruct (safe_all (genc q) (cID k) forall_fuel (safe_genc q HK) _ _ _ (mk_good _ _ _ I J) E) as [[_ SS] _]; [discriminate|]. cbn [cScoper] in SS.
    apply bind_inv in E as ([] & c1 & E1 & E). unfold m_AddScope in E1.
    assert (c1 = mkCtx (AddScope s (cID k)) vm m) as -> by (unfold set_scoper in E1; cbn [cVM cModel cScoper] in E1; congruence).
    unfold defer_PopScope in E. match type of E with (let (_, _) := ?x in _) = _ => destruct x as [r1 c2] eqn:E2 end.
    assert (r1 = Ok g) as -> by (destruct r1; destruct (PopScope (cScoper c2)) as [[pe|] s2]; congruence).
    apply bind_inv in E2 as (it & c3 & E3 & E2). unfold lift in E3. cbn [cModel] in E3. apply pair_equal_spec in E3 as [E3 <-].
    destruct (loop_reads q IH vm m _ _ _ _ (BLeaf TrueCNF) _ _ _ _ I (sc_inv_AddScope s (cID k) J) (reads_true vm I) E2) as (l & b & s' & vm' & -> & J' & Vl & Shs & R').
    destruct (PopScope (cScoper (mkCtx s' vm' m))) as [[pe|] s2]; [discriminate|]. injection E as <-. unfold set_scoper in *. cbn [cScoper cVM cModel] in *. subst s2.
    exists b, s, vm'. split; auto. split; auto. split; [econstructor; eauto|exact R'].
Qed.

Theorem C54_reads : forall q c g c', all_keep q -> good_ctx c -> genc q c = (Ok g, c') ->
  exists b, shape (cModel c) q (cScoper c) b (cScoper c') /\
    (forall r, Con r g = true -> Forall (fun f => Con r f = true) (leaves b) /\ Sem r g = bval r b) /\
    (forall r, Forall (fun f => Con r f = true) (leaves b) ->
       exists r', same_named (cVM c') r r' /\ Con r' g = true /\ bval r' b = bval r b).
Proof.
  intros q [s vm m] g c' K [I J] E. cbn [cVM cScoper cModel] in *. destruct (genc_reads q K s vm m g c' I J E) as (b & s' & vm' & -> & J' & Sh & _ & X & B & N & S & C).
  exists b. split; [exact Sh|]. split; [exact S|]. intros r H. destruct (C r H) as (r' & A1 & A2 & A3 & A4). exists r'. split; [exact A3|]. split; [exact A4|]. eapply bval_same; eauto.
Qed.
Print Assumptions C54_reads.

Theorem C54_satisfiable : forall q c g c', all_keep q -> good_ctx c -> genc q c = (Ok g, c') ->
  exists b, shape (cModel c) q (cScoper c) b (cScoper c') /\
    ((exists r, Models r g = true) <-> exists r, Forall (fun f => Con r f = true) (leaves b) /\ bval r b = true).
Proof.
  intros q c g c' K G E. destruct (C54_reads q c g c' K G E) as (b & Sh & S & C). exists b. split; [exact Sh|]. unfold Models. split.
  - intros (r & H). apply andb_true_iff in H as [H1 H2]. destruct (S r H2) as [A1 A2]. exists r. split; [exact A1|congruence].
  - intros (r & H1 & H2). destruct (C r H1) as (r' & A1 & A2 & A3). exists r'. destruct (S r' A2) as [_ A4]. apply andb_true_iff. split; [congruence|exact A2].
Qed.
Print Assumptions C54_satisfiable.

(* On a decision tree the quantifier goes through the node instances. *)
Theorem C54_visits : forall m t it l, is_dtree m t -> newNodeAsValuesIter (Dim m) (Nodes m) = Ok it -> visits it l -> l = node_instances (Dim m) t.
Proof.
  intros m t it l DT E V. destruct (iter_runs m t DT) as (it0 & it' & k & I1 & I2 & I3 & I4 & I5). assert (it0 = it) as -> by congruence.
  assert (G : forall it l, visits it l -> forall l' k, runs it l' k it' -> (k < next_fuel (it_nodes it))%nat -> l = l').
  { clear - I5. induction 1 as [it it1 E|it it1 l E V IH]; intros l' k R K; pose proof (it_next_runs _ _ _ _ _ R K I5) as N; unfold Next in E; destruct l' as [|x l'].
    - reflexivity.
    - destruct N as (i1 & k1 & N & _). congruence.
    - congruence.
    - destruct N as (i1 & k1 & N & T & R1 & K1 & Nd). assert (i1 = it1) as -> by congruence. f_equal; [exact T|]. apply (IH l' k1 R1). rewrite Nd. lia. }
  apply (G it l V _ k I3). now rewrite I2.
Qed.
Print Assumptions C54_visits.

(* A component that takes a number it did not ask for.  Everything it and its
   sibling say can be true together; the formula cannot. *)
Definition grabs : comp := PTopV (fun n => PClauses [[- (n + 3)]] []).
Definition either : comp := PCNFVar ("x", 0, ZERO) (fun a => PCNFVar ("x", 0, ONE) (fun b => PClauses [[a; b]] [])).
Theorem C54_unregistered_refuted : exists p q c g c', good_ctx c /\ all_keep q /\
  genc (GAnd (GOut p) (GNot q)) c = (Ok g, c') /\
  (forall b s', shape (cModel c) (GAnd (GOut p) (GNot q)) (cScoper c) b s' ->
     exists r, Forall (fun f => Con r f = true) (leaves b) /\ bval r b = true) /\
  ~ (exists r, Models r g = true).
Proof.
  exists grabs, (GOut either), (BasicQContext stump).
  eexists. eexists. split; [apply fresh_good|]. split.
  { constructor; [|constructor]. intros a Ha b Hb cl l Hc Hl. destruct Hc as [<-|[]]. destruct Hl as [<-|[<-|[]]]; simpl; lia. }
  split; [vm_compute; reflexivity|]. split.
  - intros b s' H. inversion H as [| | |? ? ? b1 s1 b2 s2 H1 H2| | | ]; subst. inversion H1 as [|? ? f (vm & vm' & I & E)| | | | |]; subst.
    inversion H2 as [| |? ? b3 ? H3| | | |]; subst. inversion H3 as [|? ? f' (vm2 & vm3 & I' & E')| | | | |]; subst. cbn [run_comp grabs] in E. injection E as <- _.
    unfold either in E'. cbn [run_comp cVM] in E'. destruct (CNFVar vm2 ("x", 0, ZERO)) as [n1 vm4] eqn:E1. cbn [set_vm cVM] in E'.
    destruct (CNFVar_spec _ _ _ _ I' E1) as (A1 & _ & L1 & _). destruct (CNFVar vm4 ("x", 0, ONE)) as [n2 vm5] eqn:E2. destruct (CNFVar_spec _ _ _ _ A1 E2) as (A2 & _ & L2 & _).
    pose proof (proj1 (proj2 A1) _ _ L1). pose proof (proj1 (proj2 A2) _ _ L2). injection E' as <- _.
    cbn [cVM]. exists (fun _ => false). split; [repeat constructor|].
    cbn [bval]. unfold Sem. cbn. unfold clause_true, lit_true. cbn. destruct (Z.ltb_spec 0 (- (vm_topv vm + 3))); [destruct I; lia|].
    destruct (Z.ltb_spec 0 n1); [|lia]. destruct (Z.ltb_spec 0 n2); [|lia]. reflexivity.
  - intros (r & H). revert H. vm_compute. destruct (r 1), (r 2), (r 3); intros H; discriminate H.
Qed.
Print Assumptions C54_unregistered_refuted.

(* A component from outside, y = the constant n of the quantifier, below a
   negation, an Or, a declaration and a quantifier. *)
Fixpoint all_clauses (w : string) (i : Z) (e : inst) (acc : list clause) : comp :=
  match e with
  | [] => PClauses acc []
  | x :: e => PCNFVar (w, i, x) (fun n => all_clauses w (i + 1) e (acc ++ [[n]]))
  end.
Definition equals (v : QVar) (k : QConst) : comp :=
  PScopeVar v (fun w => PScopeConst k (fun r => if snd r then all_clauses w 0 (cVal (fst r)) [] else PErr "not in scope")).
Lemma equals_keeps : forall v k, keeps [] (equals v k).
Proof.
  intros v k w [k' [|]]; [|exact Logic.I]. cbn [fst snd].
  assert (G : forall e i acc K, (forall cl l, In cl acc -> In l cl -> In (Z.abs l) K) -> keeps K (all_clauses w i e acc)).
  { induction e as [|x e IH]; intros i acc K H; cbn [all_clauses keeps].
    - intros cl l. rewrite app_nil_r. apply H.
    - intros n Hn. apply IH. intros cl l Hc Hl. apply in_app_or in Hc as [Hc|[<-|[]]]; [right; eapply H; eauto|]. destruct Hl as [<-|[]]. left. lia. }
  apply G. intros cl l [].
Qed.

Example C54_case :
  let q := GAll (mkQConst "n" []) (GWith "y" (GOr (GNot (GOut (equals "y" (mkQConst "n" [])))) (GLib (SubsVC "y" (mkQConst "n" []))))) in
  all_keep q /\ good_ctx inner_ctx /\ exists g c', genc q inner_ctx = (Ok g, c') /\ cClauses g <> [] /\ vm_topv (cVM inner_ctx) < vm_topv (cVM c').
Proof.
  cbv zeta. split; [constructor; [apply equals_keeps|constructor]|]. split; [apply inner_good|].
  eexists. eexists. split; [vm_compute; reflexivity|]. vm_compute. split; [discriminate|reflexivity].
Qed.
(* a component that gives up inside a quantifier *)
Example C54_err_case :
  let q := GAll (mkQConst "m" []) (GNot (GOut (equals "y" (mkQConst "nowhere" [])))) in
  all_keep q /\ exists e c', genc q inner_ctx = (Err e, c').
Proof.
  cbv zeta. split; [constructor; [apply equals_keeps|constructor]|]. eexists. eexists. vm_compute. reflexivity.
Qed.
