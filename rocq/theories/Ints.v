(* Variable numbers as machine integers.  Cnf.v, Query.v and Logop.v compute
   numbers of variables in Z; here the same functions compute in integers of the
   half range H (H = 2^63 for Go's int on 64-bit machines, 2^31 on 32-bit ones):
   every sum and every change of sign wraps around as the Go specification
   says.  Numbers of features and nodes, and loop counters, are below the length
   of some slice in memory and stay in Z. *)
From Verif Require Import GoBase GoLemmas Cnf Query Walk Atoms Logop Spec CnfSem QueryLemmas Sym AtomBase Form Master Ground AtomCnf Evolve Size PropSize PropContext.
Local Open Scope Z_scope.
Local Open Scope list_scope.

Section Width.
Variable H : Z.

(* Go specification, "Integer overflow": two's complement, no panic *)
Definition wr (z : Z) : Z := (z + H) mod (2 * H) - H.

(* cnf/cnf.go:309-314 *)
Definition absIntW (v : Z) : Z := if 0 <? v then v else wr (- v).
(* cnf/cnf.go:295-306 *)
Definition maxVarW (clauses : list clause) : Z :=
  fold_left (fun topv cl => fold_left (fun topv v => if topv <? absIntW v then absIntW v else topv) cl topv) clauses 0.
(* cnf/cnf.go:50-54 *)
Definition FromClausesW (clauses : list clause) : CNF := mkCNF (maxVarW clauses) clauses [].
(* cnf/cnf.go:172-179 *)
Definition AppendSemanticsW (c : CNF) (clauses : list clause) : CNF :=
  mkCNF (maxInt (tv c) (maxVarW clauses)) (sClauses c ++ clauses) (cClauses c).
(* cnf/cnf.go:182-189 *)
Definition AppendConsistencyW (c : CNF) (clauses : list clause) : CNF :=
  mkCNF (maxInt (tv c) (maxVarW clauses)) (sClauses c) (cClauses c ++ clauses).
(* cnf/cnf.go:164-169 *)
Definition ConjunctionW (c oc : CNF) : CNF :=
  let rcnf := AppendSemanticsW c (sClauses oc) in
  let rcnf := mkCNF (tv rcnf) (sClauses rcnf) (cClauses c) in
  AppendConsistencyW rcnf (cClauses oc).
(* cnf/cnf.go:109-133 *)
Fixpoint tseytin_loopW (scls : list clause) (tv : Z) (clauses : list clause)
    (enclits : clause) : Z + (Z * list clause * clause) :=
  match scls with
  | [] => inr (tv, clauses, enclits)
  | [] :: _ => inl tv
  | [l] :: rest => tseytin_loopW rest tv clauses (enclits ++ [wr (- l)])
  | cl :: rest =>
      let tv := wr (tv + 1) in
      let auxv := tv in
      let clauses := clauses ++ map (fun lit => [wr (- lit); wr (- auxv)]) cl in
      let clauses := clauses ++ [cl ++ [auxv]] in
      tseytin_loopW rest tv clauses (enclits ++ [auxv])
  end.
(* cnf/cnf.go:150-160 *)
Definition addNegationIFFClausesW (c : CNF) (enclits : clause) : CNF :=
  let auxv := wr (tv c + 1) in
  mkCNF auxv [[auxv]]
    ((cClauses c ++ map (fun lit => [wr (- lit); auxv]) enclits) ++ [enclits ++ [wr (- auxv)]]).
(* cnf/cnf.go:105-146 *)
Definition tseytinNegationW (c : CNF) (tv0 : Z) : CNF :=
  match tseytin_loopW (sClauses c) tv0 [] [] with
  | inl tv' => mkCNF tv' [] (cClauses c)
  | inr (tv', clauses, enclits) =>
      let c' := mkCNF tv' (sClauses c) (cClauses c ++ clauses) in
      if (length enclits =? 1)%nat then mkCNF tv' [enclits] (cClauses c')
      else addNegationIFFClausesW c' enclits
  end.
(* cnf/cnf.go:66-101 *)
Definition NegateW (c : CNF) (opt_topv : option Z) : CNF :=
  let topv := match opt_topv with Some k => maxInt (tv c) k | None => tv c end in
  match sClauses c with
  | [] => let rcnf := AppendSemanticsW c [[]] in mkCNF topv (sClauses rcnf) (cClauses rcnf)
  | _ =>
      if hasEmptySemanticClause c then mkCNF topv [] (cClauses c)
      else tseytinNegationW (mkCNF topv (sClauses c) (cClauses c)) topv
  end.
(* query/varmanager.go:48-56 *)
Definition CNFVarW (vm : varman) (t : varRep) : Z * varman :=
  match vlookup (vm_vars vm) t with
  | Some val => (val, vm)
  | None => let n := wr (vm_topv vm + 1) in (n, mkVarman n ((t, n) :: vm_vars vm))
  end.
(* The replay of a component's clauses, as in Atoms.v; a negative literal is
   written -ctx.CNFVar(...) in every component. *)
Fixpoint alloc_varsW (vm : varman) (l : list varRep) : varman :=
  match l with [] => vm | t :: r => alloc_varsW (snd (CNFVarW vm t)) r end.
Fixpoint alloc_clauseW (vm : varman) (cl : sclause) : clause * varman :=
  match cl with
  | [] => ([], vm)
  | (s, t) :: r =>
      let (n, vm) := CNFVarW vm t in
      let (r', vm) := alloc_clauseW vm r in
      ((if s then n else wr (- n)) :: r', vm)
  end.
Fixpoint alloc_clausesW (vm : varman) (cls : list sclause) : list clause * varman :=
  match cls with
  | [] => ([], vm)
  | cl :: r => let (cl', vm) := alloc_clauseW vm cl in let (r', vm) := alloc_clausesW vm r in (cl' :: r', vm)
  end.
Definition run_emitW (cv : CNF * varman) (e : emit) : CNF * varman :=
  let (c, vm) := cv in
  match e with
  | EAlloc l => (c, alloc_varsW vm l)
  | EFrom cls => let (cls, vm) := alloc_clausesW vm cls in (FromClausesW cls, vm)
  | ESem cls => let (cls, vm) := alloc_clausesW vm cls in (AppendSemanticsW c cls, vm)
  | ECons cls => let (cls, vm) := alloc_clausesW vm cls in (AppendConsistencyW c cls, vm)
  end.
Definition run_emitsW (vm : varman) (es : list emit) : CNF * varman := fold_left run_emitW es (TrueCNF, vm).
(* as enc_atom in Logop.v; atom_enc computes no variable numbers *)
Definition enc_atomW (a : atom) : M CNF :=
  fun c =>
    match atom_enc c a with
    | Ok (ABool b) => (Ok (if b then TrueCNF else FalseCNF), c)
    | Ok (AEmit es) => let (f, vm) := run_emitsW (cVM c) es in (Ok f, set_vm c vm)
    | Err e => (Err e, c)
    | Panic => (Panic, c)
    | Hang => (Hang, c)
    end.
(* logop/with_var.go:60-104 *)
Definition encodeIW (v : QVar) : M CNF :=
  mdo v <- m_ScopeVar v ;;
  fun c =>
    if CNFVarExists (cVM c) (v, 0, BOT) then (Ok TrueCNF, c)
    else let (f, vm) := run_emitsW (cVM c) (withvar_emits (Z.of_nat (Dim (cModel c))) v) in (Ok f, set_vm c vm).
(* logop/not.go:45-48 *)
Definition m_NegateW (f : CNF) : M CNF :=
  mdo tv <- m_TopV ;;
  let g := NegateW f (Some tv) in
  mdo _ <- m_UpdateTopV (TopV g) ;;
  ret g.
(* logop/forallguarded.go:184-197 *)
Fixpoint forall_loopW (fuel : nat) (body : M CNF) (it : iter) (i : Z) (acc : CNF) : M CNF :=
  match fuel with
  | O => lift Hang
  | S f =>
      mdo r <- lift (Next it) ;;
      let '(more, it) := r in
      if (more : bool) then
        mdo _ <- m_SetScope i (it_t it) ;;
        mdo icnf <- body ;;
        forall_loopW f body it (i + 1) (ConjunctionW acc icnf)
      else ret acc
  end.
(* the Encoding methods, as enc in Logop.v *)
Fixpoint encW (q : query) : M CNF :=
  match q with
  | QNil => lift Panic
  | QAtom a => enc_atomW a
  | QNot q => wrap "Not" (if is_nil q then fail nil_child_err else mdo f <- encW q ;; m_NegateW f)
  | QAnd q1 q2 =>
      wrap "And"
        (if is_nil q1 then fail (nil_child_err ++ " (1)")%string
         else if is_nil q2 then fail (nil_child_err ++ " (2)")%string
         else
           mdo f1 <- wrap "Q1" (encW q1) ;;
           mdo f2 <- wrap "Q2" (encW q2) ;;
           ret (ConjunctionW f1 f2))
  | QOr q1 q2 =>
      wrap "Or"
        (if is_nil q1 then fail (nil_child_err ++ " (1)")%string
         else if is_nil q2 then fail (nil_child_err ++ " (2)")%string
         else
           mdo f1 <- wrap "Q1" (encW q1) ;;
           mdo f2 <- wrap "Q2" (encW q2) ;;
           mdo g1 <- m_NegateW f1 ;;
           mdo g2 <- m_NegateW f2 ;;
           m_NegateW (ConjunctionW g1 g2))
  | QWith v q =>
      wrap "WithVar"
        (if is_nil q then fail nil_child_err
         else
           mdo _ <- m_AddVar v ;;
           mdo fi <- encodeIW v ;;
           mdo f <- encW q ;;
           ret (ConjunctionW fi f))
  | QAll c q =>
      wrap "ForAllGuarded"
        (if is_nil q then fail nil_child_err
         else
           mdo _ <- m_AddScope (cID c) ;;
           defer_PopScope
             (fun cx =>
                (mdo it <- lift (newNodeAsValuesIter (Dim (cModel cx)) (Nodes (cModel cx))) ;;
                 forall_loopW (forall_fuel (Nodes (cModel cx))) (encW q) it 0 TrueCNF) cx))
  end.

(* ---- within the range nothing wraps ---- *)

Lemma wr_id : forall z, - H <= z < H -> wr z = z.
Proof. intros z R. unfold wr. rewrite Z.mod_small; lia. Qed.
Lemma absIntW_id : forall v, Z.abs v < H -> absIntW v = absInt v.
Proof. intros v R. unfold absIntW, absInt. destruct (0 <? v); auto. apply wr_id. lia. Qed.

Definition inside (cl : clause) : Prop := Forall (fun l => Z.abs l < H) cl.
Lemma bound_inside : forall k cl, clause_bound k cl -> k < H -> inside cl.
Proof. intros k cl B K. eapply Forall_impl; [|exact B]. intros l [_ L]. lia. Qed.
Lemma bounds_inside : forall k cls, clauses_bound k cls -> k < H -> Forall inside cls.
Proof. intros k cls B K. eapply Forall_impl; [|exact B]. intros l L. eapply bound_inside; eauto. Qed.

Lemma maxVarW_id : forall cls, Forall inside cls -> maxVarW cls = maxVar cls.
Proof.
  intros cls F. unfold maxVarW, maxVar. generalize 0. induction F as [|cl cls F1 F IH]; intros k; cbn [fold_left]; auto.
  rewrite IH. f_equal. clear IH F. revert k. induction F1 as [|l cl L F1 IH]; intros k; cbn [fold_left]; auto. rewrite !absIntW_id by auto. apply IH.
Qed.
Lemma FromClausesW_id : forall cls, Forall inside cls -> FromClausesW cls = FromClauses cls.
Proof. intros cls F. unfold FromClausesW, FromClauses. now rewrite maxVarW_id. Qed.
Lemma AppendSemanticsW_id : forall c cls, Forall inside cls -> AppendSemanticsW c cls = AppendSemantics c cls.
Proof. intros c cls F. unfold AppendSemanticsW, AppendSemantics. now rewrite maxVarW_id. Qed.
Lemma AppendConsistencyW_id : forall c cls, Forall inside cls -> AppendConsistencyW c cls = AppendConsistency c cls.
Proof. intros c cls F. unfold AppendConsistencyW, AppendConsistency. now rewrite maxVarW_id. Qed.
Lemma ConjunctionW_id : forall c oc, cnf_wf oc -> tv oc < H -> ConjunctionW c oc = Conjunction c oc.
Proof.
  intros c oc (W1 & W2 & W3) T. unfold ConjunctionW, Conjunction.
  rewrite AppendSemanticsW_id, AppendConsistencyW_id; auto; eapply bounds_inside; eauto.
Qed.

Lemma negs_id : forall cl a, inside cl -> Z.abs a < H -> map (fun lit => [wr (- lit); a]) cl = map (fun lit => [- lit; a]) cl.
Proof. intros cl a F A. induction F as [|l cl L F IH]; cbn [map]; auto. rewrite IH, wr_id; auto. lia. Qed.

Lemma loop_up : forall scls k cls el, match tseytin_loop scls k cls el with inl k' => k <= k' | inr (k', _, _) => k <= k' end.
Proof.
  induction scls as [|cl scls IH]; intros k cls el; cbn [tseytin_loop]; [lia|]. destruct cl as [|l [|l2 cl]]; [lia|apply IH|].
  match goal with |- match tseytin_loop ?a ?b ?c ?d with _ => _ end => specialize (IH b c d); destruct (tseytin_loop a b c d) as [k'|[[k' u] v]]; lia end.
Qed.

Lemma loopW_id : forall scls k cls el, Forall inside scls -> 0 <= k -> inside el ->
  match tseytin_loop scls k cls el with inl k' => k' < H | inr (k', _, _) => k' < H end ->
  tseytin_loopW scls k cls el = tseytin_loop scls k cls el /\
  match tseytin_loop scls k cls el with inl _ => True | inr (_, _, el') => inside el' end.
Proof.
  induction scls as [|cl scls IH]; intros k cls el F K E R; cbn [tseytin_loop tseytin_loopW] in *; auto.
  apply Forall_cons_iff in F as [F1 F]. destruct cl as [|l [|l2 cl]]; auto.
  - apply Forall_inv in F1. rewrite wr_id by lia. apply IH; auto. apply Forall_app. split; auto. constructor; auto. lia.
  - match type of R with match tseytin_loop ?a ?b ?c ?d with _ => _ end => pose proof (loop_up a b c d) as U;
      assert (K1 : k + 1 < H) by (destruct (tseytin_loop a b c d) as [k'|[[k' u] v]]; lia) end.
    clear U. rewrite (wr_id (k + 1)) by lia. rewrite (wr_id (- (k + 1))) by lia. rewrite negs_id by (auto; lia).
    apply IH; auto; [lia|]. apply Forall_app. split; auto. constructor; auto. lia.
Qed.

Lemma NegateW_id : forall c opt, cnf_wf c -> tv (Negate c opt) < H -> NegateW c opt = Negate c opt.
Proof.
  intros c opt W T. pose proof (Negate_spec c opt W) as N. cbv zeta in N. destruct N as (_ & N & _). destruct W as (W1 & W2 & W3).
  unfold Negate, NegateW in *.
  assert (TK : tv c <= neg_topv c opt) by (unfold neg_topv; destruct opt; lia).
  assert (EK : match opt with Some k => maxInt (tv c) k | None => tv c end = neg_topv c opt).
  { unfold neg_topv. destruct opt; auto. apply maxInt_spec. }
  rewrite EK in *. set (k := neg_topv c opt) in *. clearbody k. clear EK opt.
  assert (F : Forall inside (sClauses c)) by (eapply bounds_inside; [exact W2|lia]).
  destruct (sClauses c) as [|cl0 scls0] eqn:ES; [unfold AppendSemanticsW, AppendSemantics; rewrite ES; reflexivity|].
  destruct (hasEmptySemanticClause c); auto. unfold tseytinNegation, tseytinNegationW in *. cbn [sClauses cClauses] in *.
  destruct (loopW_id (cl0 :: scls0) k [] [] F) as [L1 L2]; [lia|constructor| |].
  - destruct (tseytin_loop (cl0 :: scls0) k [] []) as [k'|[[k' u] v]]; [exact T|]. destruct (length v =? 1)%nat; [exact T|].
    unfold addNegationIFFClauses in T. cbn [tv] in T. lia.
  - pose proof (loop_up (cl0 :: scls0) k [] []) as U. rewrite L1. destruct (tseytin_loop (cl0 :: scls0) k [] []) as [k'|[[k' u] v]]; auto.
    destruct (length v =? 1)%nat; auto. unfold addNegationIFFClauses, addNegationIFFClausesW in *. cbn [tv cClauses] in *.
    rewrite (wr_id (k' + 1)) by lia. rewrite (wr_id (- (k' + 1))) by lia. rewrite negs_id; auto. lia.
Qed.

Lemma CNFVarW_id : forall vm t n vm', CNFVar vm t = (n, vm') -> vm_inv vm -> vm_topv vm' < H -> CNFVarW vm t = (n, vm').
Proof.
  intros vm t n vm' E I T. unfold CNFVar, CNFVarW in *. destruct (vlookup (vm_vars vm) t); auto. injection E as <- <-. cbn [vm_topv] in T.
  destruct I as [I _]. rewrite wr_id by lia. reflexivity.
Qed.
Lemma alloc_clause_id : forall cl vm cl' vm', vm_inv vm -> alloc_clause vm cl = (cl', vm') -> vm_topv vm' < H -> alloc_clauseW vm cl = (cl', vm').
Proof.
  induction cl as [|[s t] cl IH]; intros vm cl' vm' I E T; cbn [alloc_clause alloc_clauseW] in *; auto.
  destruct (CNFVar vm t) as [n vm1] eqn:E1. destruct (alloc_clause vm1 cl) as [r vm2] eqn:E2. injection E as <- <-.
  destruct (CNFVar_spec _ _ _ _ I E1) as (I1 & X1 & L1 & _). destruct (alloc_clause_spec _ _ _ _ I1 E2) as ((I2 & X2 & _) & _).
  destruct X2 as [X2 _]. rewrite (CNFVarW_id _ _ _ _ E1 I) by lia. rewrite (IH _ _ _ I1 E2 T).
  pose proof (proj1 (proj2 I1) _ _ L1) as R. rewrite wr_id by lia. reflexivity.
Qed.
Lemma alloc_clauses_id : forall cls vm cls' vm', vm_inv vm -> alloc_clauses vm cls = (cls', vm') -> vm_topv vm' < H -> alloc_clausesW vm cls = (cls', vm').
Proof.
  induction cls as [|cl cls IH]; intros vm cls' vm' I E T; cbn [alloc_clauses alloc_clausesW] in *; auto.
  destruct (alloc_clause vm cl) as [c1 vm1] eqn:E1. destruct (alloc_clauses vm1 cls) as [r vm2] eqn:E2. injection E as <- <-.
  destruct (alloc_clause_spec _ _ _ _ I E1) as ((I1 & X1 & _) & _). destruct (alloc_clauses_spec _ _ _ _ I1 E2) as ((I2 & X2 & _) & _).
  destruct X2 as [X2 _]. rewrite (alloc_clause_id _ _ _ _ I E1) by lia. now rewrite (IH _ _ _ I1 E2 T).
Qed.
Lemma alloc_vars_id : forall l vm, vm_inv vm -> vm_topv (alloc_vars vm l) < H -> alloc_varsW vm l = alloc_vars vm l /\ vm_topv vm <= vm_topv (alloc_vars vm l).
Proof.
  induction l as [|t l IH]; intros vm I T; cbn [alloc_vars alloc_varsW] in *; [split; auto; lia|].
  destruct (CNFVar vm t) as [n vm1] eqn:E1. cbn [snd] in *. destruct (CNFVar_spec _ _ _ _ I E1) as (I1 & [X1 _] & _).
  destruct (IH vm1 I1 T) as [A B]. rewrite (CNFVarW_id _ _ _ _ E1 I) by lia. cbn [snd]. split; auto. lia.
Qed.
Lemma run_emit_id : forall e c vm c' vm', vm_inv vm -> run_emit (c, vm) e = (c', vm') -> vm_topv vm' < H -> run_emitW (c, vm) e = (c', vm').
Proof.
  intros e c vm c' vm' I E T. unfold run_emit, run_emitW in *. destruct e as [l|cls|cls|cls].
  - injection E as <- <-. now rewrite (proj1 (alloc_vars_id l vm I T)).
  - destruct (alloc_clauses vm cls) as [l vm1] eqn:E1. injection E as <- <-. destruct (alloc_clauses_spec _ _ _ _ I E1) as (_ & B & _).
    rewrite (alloc_clauses_id _ _ _ _ I E1 T), FromClausesW_id; auto. eapply bounds_inside; eauto.
  - destruct (alloc_clauses vm cls) as [l vm1] eqn:E1. injection E as <- <-. destruct (alloc_clauses_spec _ _ _ _ I E1) as (_ & B & _).
    rewrite (alloc_clauses_id _ _ _ _ I E1 T), AppendSemanticsW_id; auto. eapply bounds_inside; eauto.
  - destruct (alloc_clauses vm cls) as [l vm1] eqn:E1. injection E as <- <-. destruct (alloc_clauses_spec _ _ _ _ I E1) as (_ & B & _).
    rewrite (alloc_clauses_id _ _ _ _ I E1 T), AppendConsistencyW_id; auto. eapply bounds_inside; eauto.
Qed.
Lemma run_emits_id : forall es vm, vm_inv vm -> vm_topv (snd (run_emits vm es)) < H -> run_emitsW vm es = run_emits vm es.
Proof.
  intros es vm I. unfold run_emits, run_emitsW.
  assert (O : emits_ok vm (TrueCNF, vm) [] [] []).
  { split; [now apply grows_nil|]. split; [apply wf_True|]. split; [apply I|]. intros; split; reflexivity. }
  revert O. generalize (@nil sclause) at 1. intros sem. generalize (@nil sclause). intros con. generalize (@nil varRep). intros l. generalize (TrueCNF, vm) at 1 2 3 4.
  revert sem con l. induction es as [|e es IH]; intros sem con l cv O T; cbn [fold_left] in *; auto.
  pose proof (run_emit_spec vm cv e sem con l O) as O1. rewrite <- (IH _ _ _ _ O1 T). f_equal.
  assert (Q : vm_topv (snd (run_emit cv e)) < H).
  { pose proof O1 as ((I1 & _) & W1 & T1 & _).
    assert (G : forall es0 cv0, vm_inv (snd cv0) -> cnf_wf (fst cv0) -> vm_topv (snd cv0) <= vm_topv (snd (fold_left run_emit es0 cv0))).
    { clear. induction es0 as [|e es IH]; intros cv I W; cbn [fold_left]; [lia|].
      assert (Q : vm_inv (snd (run_emit cv e)) /\ cnf_wf (fst (run_emit cv e)) /\ vm_topv (snd cv) <= vm_topv (snd (run_emit cv e))).
      { destruct cv as [c vm]. cbn [fst snd] in *. unfold run_emit. destruct e as [l|cls|cls|cls].
        - cbn [fst snd]. assert (Q : vm_inv (alloc_vars vm l) /\ vm_topv vm <= vm_topv (alloc_vars vm l)).
          { revert vm I. induction l as [|t l IHl]; intros vm I; cbn [alloc_vars]; [split; auto; lia|].
            destruct (CNFVar vm t) as [n vm1] eqn:E1. destruct (CNFVar_spec _ _ _ _ I E1) as (I1 & [X1 _] & _). cbn [snd]. destruct (IHl vm1 I1). split; auto. lia. }
          tauto.
        - destruct (alloc_clauses vm cls) as [l vm1] eqn:E1. destruct (alloc_clauses_spec _ _ _ _ I E1) as ((I1 & [X _] & _) & B & _). cbn [fst snd]. split; auto. split; auto. apply wf_FromClauses. eapply clauses_bound_legal; eauto.
        - destruct (alloc_clauses vm cls) as [l vm1] eqn:E1. destruct (alloc_clauses_spec _ _ _ _ I E1) as ((I1 & [X _] & _) & B & _). cbn [fst snd]. split; auto. split; auto. apply wf_AppendSemantics; auto. eapply clauses_bound_legal; eauto.
        - destruct (alloc_clauses vm cls) as [l vm1] eqn:E1. destruct (alloc_clauses_spec _ _ _ _ I E1) as ((I1 & [X _] & _) & B & _). cbn [fst snd]. split; auto. split; auto. apply wf_AppendConsistency; auto. eapply clauses_bound_legal; eauto. }
      destruct Q as (Q1 & Q2 & Q3). specialize (IH _ Q1 Q2). lia. }
    specialize (G es _ I1 W1). lia. }
  destruct cv as [c vm1]. destruct O as ((I1 & _) & _). cbn [snd] in I1. destruct (run_emit (c, vm1) e) as [c2 vm2] eqn:E2. now apply run_emit_id.
Qed.

(* ---- encoding ---- *)

(* If x, started in a good context satisfying P, ends with all its numbers below
   H, then xW does the same. *)
Definition narrow {A} (P : varman -> Prop) (xW x : M A) : Prop :=
  forall c r c', good_ctx c -> P (cVM c) -> x c = (r, c') -> r <> Hang -> vm_topv (cVM c') < H -> xW c = (r, c').
Definition both {A} (P : varman -> Prop) (Q : A -> varman -> Prop) (xW x : M A) : Prop := safe P Q x /\ narrow P xW x.

Lemma both_bind : forall A B (xW x : M A) (fW f : A -> M B) P (Q : A -> varman -> Prop) R,
  both P Q xW x -> (forall a, both (Q a) R (fW a) (f a)) -> both P R (bind xW fW) (bind x f).
Proof.
  intros A B xW x fW f P Q R [S1 N1] F. split; [eapply safe_bind; [exact S1|intros a; apply (F a)]|].
  intros c r c' G HP E X T. unfold bind in *. destruct (x c) as [r1 c1] eqn:E1. destruct r1 as [a|e| |].
  - destruct (S1 c _ c1 G HP E1) as [V1 Q1]; [discriminate|]. destruct (F a) as [S2 N2].
    destruct (S2 c1 r c' (ev_good _ _ V1) (Q1 a eq_refl) E X) as [V2 _]. pose proof (proj1 (ev_vm _ _ V2)) as L.
    rewrite (N1 c _ c1 G HP E1) by (try discriminate; lia). apply (N2 c1 r c'); auto. apply V1.
  - injection E as <- <-. rewrite (N1 c _ c1 G HP E1); auto. discriminate.
  - injection E as <- <-. rewrite (N1 c _ c1 G HP E1); auto. discriminate.
  - injection E as <- <-. congruence.
Qed.
Lemma both_wrap : forall A p (xW x : M A) P Q, both P Q xW x -> both P Q (wrap p xW) (wrap p x).
Proof.
  intros A p xW x P Q [S1 N1]. split; [now apply safe_wrap|]. intros c r c' G HP E X T. unfold wrap in *. destruct (x c) as [r1 c1] eqn:E1.
  assert (X1 : r1 <> Hang) by (intros ->; injection E as <- <-; congruence).
  assert (c' = c1) as -> by (destruct r1; congruence).
  rewrite (N1 c _ c1 G HP E1 X1 T). destruct r1; congruence.
Qed.
Lemma both_same : forall A (x : M A) P Q, safe P Q x -> both P Q x x.
Proof. intros A x P Q S. split; auto. intros c r c' G HP E X T. exact E. Qed.
Lemma both_frame : forall A (xW x : M A) P Q (F : varman -> Prop), (forall vm vm', vm_ext vm vm' -> F vm -> F vm') ->
  both P Q xW x -> both (fun vm => P vm /\ F vm) (fun a vm => Q a vm /\ F vm) xW x.
Proof. intros A xW x P Q F HF [S1 N1]. split; [now apply safe_frame|]. intros c r c' G [HP _] E X T. now apply N1. Qed.
Lemma both_weaken : forall A (xW x : M A) (P P' : varman -> Prop) (Q Q' : A -> varman -> Prop),
  both P Q xW x -> (forall vm, P' vm -> P vm) -> (forall a vm, Q a vm -> Q' a vm) -> both P' Q' xW x.
Proof. intros A xW x P P' Q Q' [S1 N1] HP HQ. split; [eapply safe_weaken; eauto|]. intros c r c' G K E X T. apply N1; auto. Qed.

Lemma both_atom : forall a, both anything bounded (enc_atomW a) (enc_atom a).
Proof.
  intros a. split; [apply safe_enc_atom|]. intros c r c' [I J] _ E X T. unfold enc_atomW, enc_atom in *.
  destruct (atom_enc c a) as [[b|es]|e| |]; auto.
  rewrite run_emits_id; auto. destruct (run_emits (cVM c) es) as [f vm']. injection E as <- <-. exact T.
Qed.
Lemma both_encodeI : forall v, both anything bounded (encodeIW v) (encodeI v).
Proof.
  intros v. split; [apply safe_encodeI|]. intros c r c' [I J] _ E X T. unfold encodeIW, encodeI, bind, m_ScopeVar in *.
  rewrite ScopeVar_ok in * by auto. destruct (CNFVarExists _ _); auto.
  rewrite run_emits_id; auto. destruct (run_emits (cVM c) _) as [f vm']. injection E as <- <-. exact T.
Qed.
Lemma both_Negate : forall f, both (bounded f) bounded (m_NegateW f) (m_Negate f).
Proof.
  intros f. split; [apply safe_Negate|]. intros c r c' G [W L] E X T.
  assert (EN : NegateW f (Some (vm_topv (cVM c))) = Negate f (Some (vm_topv (cVM c)))).
  { apply NegateW_id; auto. destruct (safe_Negate f c r c' G (conj W L) E X) as [_ B].
    destruct c as [s vm m]. rewrite neg_m in E. injection E as <- <-. destruct (B _ eq_refl) as [_ B1]. unfold negF in B1, T. cbn [fst snd cVM] in *. lia. }
  rewrite <- E. unfold m_NegateW, m_Negate, bind, m_TopV. cbn beta iota. now rewrite EN.
Qed.
Lemma both_Conj : forall f g, both (fun vm => bounded g vm /\ bounded f vm) bounded (ret (ConjunctionW f g)) (ret (Conjunction f g)).
Proof.
  intros f g. split; [apply safe_ret; intros vm [H1 H2]; now apply bounded_Conj|]. intros c r c' G [[B1 B2] _] E X T. injection E as <- <-.
  unfold ret. rewrite ConjunctionW_id; auto. lia.
Qed.

Lemma both_loop : forall bodyW body base tgt, both anything bounded bodyW body ->
  forall fuel it i acc c r c', good_ctx c -> (exists g, scopes (cScoper c) = base ++ [g] /\ sTarget g = tgt) -> bounded acc (cVM c) ->
  forall_loop fuel body it i acc c = (r, c') -> r <> Hang -> vm_topv (cVM c') < H ->
  forall_loopW fuel bodyW it i acc c = (r, c').
Proof.
  intros bodyW body base tgt [Hb Hn] fuel. induction fuel as [|fuel IH]; intros it i acc c r c' G S B E N T.
  - injection E as <- <-. congruence.
  - cbn [forall_loop forall_loopW] in *. unfold bind at 1, lift in E. unfold bind at 1, lift. destruct (Next it) as [[more it1]|e| |]; auto.
    destruct more; auto.
    assert (SS : exists c1, m_SetScope i (it_t it1) c = (Ok tt, c1)).
    { unfold m_SetScope. pose proof (SetScope_ok (cScoper c) i (it_t it1)) as K. destruct (SetScope _ _ _) as [er s1]. cbn [fst] in K.
      rewrite K; [eauto|]. destruct S as (g & S & _). rewrite S. destruct base; discriminate. }
    destruct SS as (c1 & SS). destruct (turns_set base tgt c i (it_t it1) c1 G S SS) as [T1 V1].
    rewrite (bind_ok _ _ _ _ _ _ _ SS) in E. rewrite (bind_ok _ _ _ _ _ _ _ SS). unfold bind at 1 in E. destruct (body c1) as [r2 c2] eqn:E2.
    assert (N2 : r2 <> Hang) by (intros ->; injection E as <- <-; congruence).
    destruct (Hb c1 r2 c2 (tn_good _ _ _ _ T1) Logic.I E2 N2) as [V2 B2].
    pose proof (evolves_turns base tgt c1 c2 V2 (tn_scopes _ _ _ _ T1)) as T2.
    pose proof (turns_trans _ _ _ _ _ T1 T2) as T12.
    assert (NW : vm_topv (cVM c2) < H -> bodyW c1 = (r2, c2)) by (intros K; apply (Hn c1 r2 c2); auto; [apply T1|exact Logic.I]).
    destruct r2 as [f2|e| |].
    + assert (BA : bounded (Conjunction acc f2) (cVM c2)) by (apply bounded_Conj; auto; eapply bounded_ext; [apply T12|]; exact B).
      destruct (loop_turns body base tgt Hb fuel it1 (i + 1) (Conjunction acc f2) c2 r c') as [T3 _]; auto; [apply T12|apply (tn_scopes _ _ _ _ T12)|].
      assert (L : vm_topv (cVM c2) <= vm_topv (cVM c')) by (apply (tn_vm _ _ _ _ T3)).
      unfold bind at 1. rewrite NW by lia. destruct (B2 f2 eq_refl) as [W2 L2]. rewrite ConjunctionW_id; auto; [|lia].
      apply IH; auto; [apply T12|apply (tn_scopes _ _ _ _ T12)].
    + injection E as <- <-. unfold bind at 1. now rewrite NW.
    + injection E as <- <-. unfold bind at 1. now rewrite NW.
    + congruence.
Qed.

Lemma both_all : forall bodyW body id, both anything bounded bodyW body ->
  narrow anything
   (bind (m_AddScope id) (fun _ => defer_PopScope (fun cx =>
     bind (lift (newNodeAsValuesIter (Dim (cModel cx)) (Nodes (cModel cx))))
       (fun it => forall_loopW (forall_fuel (Nodes (cModel cx))) bodyW it 0 TrueCNF) cx)))
   (bind (m_AddScope id) (fun _ => defer_PopScope (fun cx =>
     bind (lift (newNodeAsValuesIter (Dim (cModel cx)) (Nodes (cModel cx))))
       (fun it => forall_loop (forall_fuel (Nodes (cModel cx))) body it 0 TrueCNF) cx))).
Proof.
  intros bodyW body id Hb c r c' G _ E N T. unfold bind at 1, m_AddScope in E. unfold bind at 1, m_AddScope.
  set (c1 := set_scoper c (AddScope (cScoper c) id)) in *. unfold defer_PopScope in *.
  assert (G1 : good_ctx c1) by now apply AddScope_good.
  assert (S1 : exists g, scopes (cScoper c1) = scopes (cScoper c) ++ [g] /\ sTarget g = id).
  { exists (mkScope id [] 0). auto. }
  assert (B1 : bounded TrueCNF (cVM c1)) by (split; [apply wf_True|apply G1]).
  match type of E with (let (_, _) := ?x in _) = _ => destruct x as [r1 c2] eqn:E1 end.
  assert (N1 : r1 <> Hang) by (intros ->; injection E as <- <-; congruence).
  assert (VC : cVM c' = cVM c2) by (destruct (PopScope (cScoper c2)) as [pe s2]; destruct r1, pe; injection E as <- <-; reflexivity).
  match goal with |- (let (_, _) := ?x in _) = _ => assert (EW : x = (r1, c2)) end.
  { unfold bind, lift in *. destruct (newNodeAsValuesIter _ _) as [it|e| |]; auto.
    eapply (both_loop bodyW body _ id Hb); eauto. now rewrite <- VC. }
  rewrite EW. exact E.
Qed.

Theorem both_enc : forall q, both anything bounded (encW q) (enc q).
Proof.
  induction q as [|a|q IH|q1 IH1 q2 IH2|q1 IH1 q2 IH2|v q IH|c q IH]; cbn [enc encW].
  - apply both_same. exact (safe_enc QNil).
  - apply both_atom.
  - apply both_wrap. destruct (is_nil q); [apply both_same, safe_fail|]. eapply both_bind; [apply IH|]. intros f. apply both_Negate.
  - apply both_wrap. destruct (is_nil q1); [apply both_same, safe_fail|]. destruct (is_nil q2); [apply both_same, safe_fail|].
    eapply both_bind; [apply both_wrap, IH1|]. intros f1.
    eapply both_bind.
    { eapply both_weaken; [apply (both_frame _ (wrap "Q2" (encW q2)) (wrap "Q2" (enc q2)) anything bounded (bounded f1)); [intros; eapply bounded_ext; eauto|apply both_wrap, IH2]| |].
      - intros vm K. split; [exact Logic.I|exact K].
      - intros f2 vm K. exact K. }
    intros f2. cbn beta. apply both_Conj.
  - apply both_wrap. destruct (is_nil q1); [apply both_same, safe_fail|]. destruct (is_nil q2); [apply both_same, safe_fail|].
    eapply both_bind; [apply both_wrap, IH1|]. intros f1.
    eapply both_bind.
    { eapply both_weaken; [apply (both_frame _ (wrap "Q2" (encW q2)) (wrap "Q2" (enc q2)) anything bounded (bounded f1)); [intros; eapply bounded_ext; eauto|apply both_wrap, IH2]| |].
      - intros vm K. split; [exact Logic.I|exact K].
      - intros f2 vm K. exact K. }
    intros f2. cbn beta.
    eapply both_bind.
    { eapply both_weaken; [apply (both_frame _ (m_NegateW f1) (m_Negate f1) (bounded f1) bounded (bounded f2)); [intros; eapply bounded_ext; eauto|apply both_Negate]| |].
      - intros vm [H1 H2]. split; assumption.
      - intros g vm K. exact K. }
    intros g1. cbn beta.
    eapply both_bind.
    { eapply both_weaken; [apply (both_frame _ (m_NegateW f2) (m_Negate f2) (bounded f2) bounded (bounded g1)); [intros; eapply bounded_ext; eauto|apply both_Negate]| |].
      - intros vm [H1 H2]. split; assumption.
      - intros g vm K. exact K. }
    intros g2. cbn beta.
    assert (SN : safe (fun vm => bounded g2 vm /\ bounded g1 vm) bounded (m_Negate (Conjunction g1 g2))).
    { eapply safe_weaken; [apply safe_Negate| |]; [intros vm [H1 H2]; now apply bounded_Conj|auto]. }
    split; [exact SN|]. intros cx r c' G B E X T. destruct (SN cx r c' G B E X) as [V _]. pose proof (proj1 (ev_vm _ _ V)) as L. destruct B as [B2 B1].
    rewrite ConjunctionW_id; [|apply B2|destruct B2; lia]. apply (proj2 (both_Negate _) cx r c'); auto. now apply bounded_Conj.
  - apply both_wrap. destruct (is_nil q); [apply both_same, safe_fail|].
    eapply both_bind; [apply both_same, safe_AddVar|]. intros u.
    eapply both_bind; [eapply both_weaken; [apply both_encodeI|intros; exact Logic.I|intros f vm K; exact K]|]. intros f1.
    eapply both_bind.
    { eapply both_weaken; [apply (both_frame _ (encW q) (enc q) anything bounded (bounded f1)); [intros; eapply bounded_ext; eauto|apply IH]| |].
      - intros vm K. split; [exact Logic.I|exact K].
      - intros f2 vm K. exact K. }
    intros f2. cbn beta. apply both_Conj.
  - apply both_wrap. destruct (is_nil q); [apply both_same, safe_fail|]. split; [|now apply both_all].
    intros cx r c' G _ E N. destruct (safe_all (enc q) (cID c) forall_fuel (proj1 IH) cx r c' G E N) as [[V _] B]. auto.
Qed.
End Width.

(* ---- the property ---- *)

(* While the last number fits, machine integers give what Z gives, for every
   width.  The context may come from earlier use. *)
Theorem C52_machine_integers : forall H q c r c', good_ctx c -> enc q c = (r, c') -> r <> Hang -> vm_topv (cVM c') < H ->
  encW H q c = (r, c').
Proof. intros H q c r c' G E X T. exact (proj2 (both_enc H q) c r c' G Logic.I E X T). Qed.
Print Assumptions C52_machine_integers.

(* A sufficient condition on the query and the model alone. *)
Theorem C52_sizes : forall b q m f c', 0 < b ->
  Z.of_nat (qlen q * unit_size (Dim m) (length (Nodes m)) * Nat.max 1 (length (Nodes m)) ^ qdepth q) < 2 ^ (b - 1) ->
  enc q (BasicQContext m) = (Ok f, c') -> encW (2 ^ (b - 1)) q (BasicQContext m) = (Ok f, c').
Proof.
  intros b q m f c' B S E. apply C52_machine_integers; auto; [apply fresh_good|discriminate|].
  destruct (C44_polynomial q (BasicQContext m) f c' (fresh_good m) E) as (_ & _ & T & _).
  change (vm_topv (cVM (BasicQContext m))) with 0%Z in T. cbn [BasicQContext cModel] in *. lia.
Qed.
Print Assumptions C52_sizes.

(* 32-bit integers *)
Definition one_split : model := mkModel 1 [mkNode false 0 1 2; mkNode true 0 (-1) (-1); mkNode false 0 (-1) (-1)].
Definition zero_one : query := QWith "x" (QAnd (QAtom (SubsCV (mkQConst "" [ZERO]) "x")) (QAtom (SubsCV (mkQConst "" [ONE]) "x"))).
Example C52_case : exists f c', enc sized_query (BasicQContext one_split) = (Ok f, c') /\ encW (2 ^ 31) sized_query (BasicQContext one_split) = (Ok f, c') /\ (10 <= length (clauses f))%nat.
Proof. eexists. eexists. split; [vm_compute; reflexivity|]. split; [vm_compute; reflexivity|]. vm_compute. repeat constructor. Qed.

(* Without the condition: after ctx.UpdateTopV(MaxInt) the first number given out
   is MinInt, which is its own negation, and a query no instance satisfies gets
   a satisfiable encoding. *)
Theorem C52_overflow_refuted : exists q m f c' fW cW r,
  let c := set_vm (BasicQContext m) (snd (UpdateTopV (cVM (BasicQContext m)) (2 ^ 63 - 1))) in
  good_ctx c /\ enc q c = (Ok f, c') /\ (forall r, Con r f && Sem r f = false) /\
  encW (2 ^ 63) q c = (Ok fW, cW) /\ Con r fW && Sem r fW = true.
Proof.
  exists zero_one, one_split. eexists. eexists. eexists. eexists. exists (fun z => negb (Z.eqb z (2 ^ 63)) && Z.eqb z (2 ^ 63 - 2)). cbv zeta.
  split; [|split; [vm_compute; reflexivity|split; [|split; vm_compute; reflexivity]]].
  - split; [|apply (fresh_good one_split)]. destruct (UpdateTopV (cVM (BasicQContext one_split)) (2 ^ 63 - 1)) as [b vm] eqn:E.
    apply (UpdateTopV_spec _ _ _ _ (proj1 (fresh_good one_split)) E).
  - intros r. unfold Con, Sem. cbn. repeat match goal with |- context [r ?k] => destruct (r k) end; reflexivity.
Qed.
Print Assumptions C52_overflow_refuted.
