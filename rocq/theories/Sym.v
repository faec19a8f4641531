(* Truth of symbolic clauses under valuations of triples, and its relation to
   the CNF that run_emits builds. *)
From Verif Require Import GoBase Cnf Query Walk Atoms CnfSem QueryLemmas.
Local Open Scope Z_scope.
Local Open Scope list_scope.

Definition tval := varRep -> bool.

Definition slit_true (t : tval) (l : slit) : bool := if fst l then t (snd l) else negb (t (snd l)).
Definition scl_true (t : tval) (cl : sclause) : bool := existsb (slit_true t) cl.
Definition scls_true (t : tval) (cls : list sclause) : bool := forallb (scl_true t) cls.

(* Semantic / consistency part of a list of emissions. *)
Definition emit_sem (acc : list sclause) (e : emit) : list sclause :=
  match e with EAlloc _ => acc | EFrom cls => cls | ESem cls => acc ++ cls | ECons _ => acc end.
Definition emit_con (acc : list sclause) (e : emit) : list sclause :=
  match e with EAlloc _ => acc | EFrom _ => [] | ESem _ => acc | ECons cls => acc ++ cls end.
Definition sems (es : list emit) : list sclause := fold_left emit_sem es [].
Definition cons_ (es : list emit) : list sclause := fold_left emit_con es [].

(* Triples asked for. *)
Definition emit_triples (e : emit) : list varRep :=
  match e with EAlloc l => l | EFrom cls | ESem cls | ECons cls => clause_vars cls end.
Definition triples (es : list emit) : list varRep := flat_map emit_triples es.

(* A valuation of the triples matches one of the CNF variables. *)
Definition matches (vm : varman) (r : valuation) (t : tval) : Prop :=
  forall u n, vlookup (vm_vars vm) u = Some n -> r n = t u.

Definition mapped (vm : varman) (u : varRep) : Prop := vlookup (vm_vars vm) u <> None.

Lemma matches_ext : forall vm vm' r t, vm_ext vm vm' -> matches vm' r t -> matches vm r t.
Proof. intros vm vm' r t (_ & H & _) M u n Hu. auto. Qed.

Lemma mapped_ext : forall vm vm' u, vm_ext vm vm' -> mapped vm u -> mapped vm' u.
Proof.
  intros vm vm' u (_ & H & _) M. unfold mapped in *.
  destruct (vlookup (vm_vars vm) u) eqn:E; [|congruence]. rewrite (H _ _ E). discriminate.
Qed.

Lemma mapped_exists : forall vm u, CNFVarExists vm u = true <-> mapped vm u.
Proof.
  intros. unfold CNFVarExists, mapped. destruct (vlookup (vm_vars vm) u); split; congruence.
Qed.

(* What one step may add to the map: only triples of l. *)
Definition grows (vm vm' : varman) (l : list varRep) : Prop :=
  vm_inv vm' /\ vm_ext vm vm' /\
  (forall u, In u l -> mapped vm' u) /\
  (forall u, mapped vm' u -> mapped vm u \/ In u l).

Lemma grows_nil : forall vm, vm_inv vm -> grows vm vm [].
Proof. intros. split; auto. split; [apply vm_ext_refl|]. split; auto. intros u []. Qed.

Lemma grows_trans : forall a b c l l', grows a b l -> grows b c l' -> grows a c (l ++ l').
Proof.
  intros a b c l l' (A1 & A2 & A3 & A4) (B1 & B2 & B3 & B4).
  split; auto. split; [eapply vm_ext_trans; eauto|]. split.
  - intros u Hu. apply in_app_or in Hu as [Hu|Hu]; auto. eapply mapped_ext; eauto.
  - intros u Hu. destruct (B4 _ Hu) as [Hb|Hb]; [|right; apply in_or_app; auto].
    destruct (A4 _ Hb); auto. right; apply in_or_app; auto.
Qed.

Lemma grows_CNFVar : forall vm u n vm', vm_inv vm -> CNFVar vm u = (n, vm') ->
  grows vm vm' [u] /\ vlookup (vm_vars vm') u = Some n.
Proof.
  intros vm u n vm' I E. destruct (CNFVar_spec _ _ _ _ I E) as (A & B & C & D).
  split; auto. split; auto. split; auto. split.
  - intros w [<-|[]]. unfold mapped. congruence.
  - intros w Hw. destruct (varRep_eqb_spec w u) as [->|N]; [right; simpl; auto|].
    left. unfold mapped in *. rewrite D in Hw; auto.
Qed.

Lemma alloc_vars_spec : forall l vm, vm_inv vm -> grows vm (alloc_vars vm l) l.
Proof.
  induction l as [|u l IH]; intros vm I; simpl.
  - now apply grows_nil.
  - destruct (CNFVar vm u) as [n vm1] eqn:E. simpl.
    destruct (grows_CNFVar _ _ _ _ I E) as [G _].
    apply (grows_trans vm vm1 _ [u] l); auto. apply IH. apply G.
Qed.

Lemma alloc_clause_spec : forall cl vm cl' vm', vm_inv vm -> alloc_clause vm cl = (cl', vm') ->
  grows vm vm' (map snd cl) /\ clause_bound (vm_topv vm') cl' /\
  (forall r t, matches vm' r t -> clause_true r cl' = scl_true t cl).
Proof.
  induction cl as [|[s u] cl IH]; intros vm cl' vm' I E; simpl in E.
  - injection E as <- <-. split; [now apply grows_nil|]. split; [constructor|reflexivity].
  - destruct (CNFVar vm u) as [n vm1] eqn:E1.
    destruct (alloc_clause vm1 cl) as [r' vm2] eqn:E2. injection E as <- <-.
    destruct (grows_CNFVar _ _ _ _ I E1) as [G L].
    destruct (IH _ _ _ (proj1 G) E2) as (G2 & B & M).
    assert (L2 : vlookup (vm_vars vm2) u = Some n) by (apply G2; exact L).
    assert (N : 1 <= n <= vm_topv vm2) by (destruct G2 as ((_ & X & _) & _); eapply X; eauto).
    split; [|split].
    + apply (grows_trans vm vm1 vm2 [u] _ G G2).
    + constructor; auto. destruct s; lia.
    + intros r t Ht. simpl. rewrite (M r t Ht). f_equal. unfold slit_true. simpl.
      destruct s.
      * rewrite lit_true_pos by lia. apply Ht. auto.
      * rewrite lit_true_neg by lia. f_equal. apply Ht. auto.
Qed.

Lemma alloc_clauses_spec : forall cls vm cls' vm', vm_inv vm -> alloc_clauses vm cls = (cls', vm') ->
  grows vm vm' (clause_vars cls) /\ clauses_bound (vm_topv vm') cls' /\
  (forall r t, matches vm' r t -> clauses_true r cls' = scls_true t cls).
Proof.
  induction cls as [|cl cls IH]; intros vm cls' vm' I E; simpl in E.
  - injection E as <- <-. split; [now apply grows_nil|]. split; [constructor|reflexivity].
  - destruct (alloc_clause vm cl) as [c1 vm1] eqn:E1.
    destruct (alloc_clauses vm1 cls) as [r' vm2] eqn:E2. injection E as <- <-.
    destruct (alloc_clause_spec _ _ _ _ I E1) as (G & B & M).
    destruct (IH _ _ _ (proj1 G) E2) as (G2 & B2 & M2).
    split; [|split].
    + unfold clause_vars. simpl. rewrite map_app. apply (grows_trans vm vm1 vm2 _ _ G G2).
    + constructor; auto. eapply clause_bound_weaken; [|exact B]. apply G2.
    + intros r t Ht. simpl. rewrite (M2 r t Ht). f_equal. apply M. eapply matches_ext; [apply G2|auto].
Qed.

Definition emits_ok (vm0 : varman) (cv : CNF * varman) (sem con : list sclause) (l : list varRep) : Prop :=
  grows vm0 (snd cv) l /\ cnf_wf (fst cv) /\ tv (fst cv) <= vm_topv (snd cv) /\
  (forall r t, matches (snd cv) r t ->
     Sem r (fst cv) = scls_true t sem /\ Con r (fst cv) = scls_true t con).

Lemma scls_true_app : forall t a b, scls_true t (a ++ b) = scls_true t a && scls_true t b.
Proof. intros. apply forallb_app. Qed.

Lemma run_emit_spec : forall vm0 cv e sem con l,
  emits_ok vm0 cv sem con l ->
  emits_ok vm0 (run_emit cv e) (emit_sem sem e) (emit_con con e) (l ++ emit_triples e).
Proof.
  intros vm0 [c vm] e sem con l (G & W & T & M). cbn [fst snd] in *.
  destruct e as [ll|cls|cls|cls]; cbn [run_emit emit_sem emit_con emit_triples].
  - pose proof (alloc_vars_spec ll vm (proj1 G)) as G2.
    split; [|split; [|split]]; cbn [fst snd]; auto.
    + eapply grows_trans; eauto.
    + destruct G2 as (_ & (X & _) & _). lia.
    + intros r t Ht. apply M. eapply matches_ext; [apply G2|auto].
  - destruct (alloc_clauses vm cls) as [cls' vm1] eqn:E.
    destruct (alloc_clauses_spec _ _ _ _ (proj1 G) E) as (G2 & B & M2).
    split; [|split; [|split]]; cbn [fst snd].
    + eapply grows_trans; eauto.
    + apply wf_FromClauses. eapply clauses_bound_legal; eauto.
    + simpl. apply maxVar_least; auto. apply G2.
    + intros r t Ht. split; [|reflexivity]. apply M2; auto.
  - destruct (alloc_clauses vm cls) as [cls' vm1] eqn:E.
    destruct (alloc_clauses_spec _ _ _ _ (proj1 G) E) as (G2 & B & M2).
    split; [|split; [|split]]; cbn [fst snd].
    + eapply grows_trans; eauto.
    + apply wf_AppendSemantics; auto. eapply clauses_bound_legal; eauto.
    + simpl. rewrite maxInt_spec. pose proof (maxVar_least cls' (vm_topv vm1)).
      destruct G2 as ((Y & _) & (X & _) & _). specialize (H Y B). lia.
    + intros r t Ht. destruct (M r t) as [M3 M4]; [eapply matches_ext; [apply G2|auto]|].
      unfold Sem, Con in *. simpl. rewrite clauses_true_app, scls_true_app, M3, (M2 r t Ht). auto.
  - destruct (alloc_clauses vm cls) as [cls' vm1] eqn:E.
    destruct (alloc_clauses_spec _ _ _ _ (proj1 G) E) as (G2 & B & M2).
    split; [|split; [|split]]; cbn [fst snd].
    + eapply grows_trans; eauto.
    + apply wf_AppendConsistency; auto. eapply clauses_bound_legal; eauto.
    + simpl. rewrite maxInt_spec. pose proof (maxVar_least cls' (vm_topv vm1)).
      destruct G2 as ((Y & _) & (X & _) & _). specialize (H Y B). lia.
    + intros r t Ht. destruct (M r t) as [M3 M4]; [eapply matches_ext; [apply G2|auto]|].
      unfold Sem, Con in *. simpl. rewrite clauses_true_app, scls_true_app, M4, (M2 r t Ht). auto.
Qed.

Lemma run_emits_spec : forall es vm, vm_inv vm ->
  emits_ok vm (run_emits vm es) (sems es) (cons_ es) (triples es).
Proof.
  intros es vm I. unfold run_emits, sems, cons_.
  assert (G : forall es cv sem con l, emits_ok vm cv sem con l ->
     emits_ok vm (fold_left run_emit es cv) (fold_left emit_sem es sem)
       (fold_left emit_con es con) (l ++ triples es)).
  { clear es. induction es as [|e es IH]; intros cv sem con l H; simpl.
    - now rewrite app_nil_r.
    - rewrite app_assoc. apply IH. now apply run_emit_spec. }
  apply (G es (TrueCNF, vm) [] [] []).
  split; [|split; [|split]]; cbn [fst snd].
  - now apply grows_nil.
  - apply wf_True.
  - simpl. apply I.
  - intros; split; reflexivity.
Qed.

(* Extending a valuation to the variables added to the map. *)
Fixpoint rlookup (m : list (varRep * Z)) (n : Z) : option varRep :=
  match m with
  | [] => None
  | (u, k) :: r => if k =? n then Some u else rlookup r n
  end.

Lemma rlookup_In : forall m n u, rlookup m n = Some u -> In (u, n) m.
Proof.
  induction m as [|[u k] m IH]; simpl; intros n w H; [discriminate|].
  destruct (Z.eqb_spec k n); [left; congruence|right; auto].
Qed.

Definition find_triple (vm : varman) (n : Z) (u : varRep) : bool :=
  match vlookup (vm_vars vm) u with Some k => k =? n | None => false end.

(* the triple numbered n, if any *)
Definition triple_of (vm : varman) (n : Z) : option varRep :=
  match filter (find_triple vm n) (map fst (vm_vars vm)) with [] => None | u :: _ => Some u end.

Lemma vlookup_In : forall m u n, vlookup m u = Some n -> In u (map fst m).
Proof.
  induction m as [|[w k] m IH]; simpl; intros u n H; [discriminate|].
  destruct (varRep_eqb_spec w u); auto. right; eauto.
Qed.

Lemma triple_of_spec : forall vm u n, vm_inv vm -> vlookup (vm_vars vm) u = Some n ->
  triple_of vm n = Some u.
Proof.
  intros vm u n I H. unfold triple_of.
  assert (Hin : In u (filter (find_triple vm n) (map fst (vm_vars vm)))).
  { apply filter_In. split; [eapply vlookup_In; eauto|]. unfold find_triple. rewrite H.
    apply Z.eqb_refl. }
  destruct (filter (find_triple vm n) (map fst (vm_vars vm))) as [|w l] eqn:E; [contradiction|].
  f_equal. assert (Hw : In w (filter (find_triple vm n) (map fst (vm_vars vm)))) by (rewrite E; simpl; auto).
  apply filter_In in Hw as [_ Hw]. unfold find_triple in Hw.
  destruct (vlookup (vm_vars vm) w) as [k|] eqn:Ew; [|discriminate].
  apply Z.eqb_eq in Hw as ->. destruct I as (_ & _ & Inj). eauto.
Qed.

Definition extend_to (vm vm' : varman) (r : valuation) (t : tval) : valuation :=
  fun n => if n <=? vm_topv vm then r n
           else match triple_of vm' n with Some u => t u | None => r n end.

Lemma extend_to_spec : forall vm vm' r t, vm_inv vm -> vm_inv vm' -> vm_ext vm vm' ->
  matches vm r t ->
  agree (vm_topv vm) r (extend_to vm vm' r t) /\ matches vm' (extend_to vm vm' r t) t.
Proof.
  intros vm vm' r t I I' (X1 & X2 & X3) M. split.
  - intros n Hn. unfold extend_to. destruct (Z.leb_spec n (vm_topv vm)); auto; lia.
  - intros u n Hu. unfold extend_to.
    destruct (vlookup (vm_vars vm) u) as [k|] eqn:E.
    + assert (k = n) by (apply X2 in E; congruence). subst k.
      destruct I as (_ & I2 & _). specialize (I2 _ _ E).
      destruct (Z.leb_spec n (vm_topv vm)); [|lia]. apply M; auto.
    + specialize (X3 _ _ Hu E). destruct (Z.leb_spec n (vm_topv vm)); [lia|].
      rewrite (triple_of_spec _ _ _ I' Hu). reflexivity.
Qed.
