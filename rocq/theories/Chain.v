(* Solvers that choose among the models: one that makes ComputeOptim walk down a
   given chain of solutions. *)
From Verif Require Import GoBase GoLemmas Cnf Query Walk Atoms Logop Spec Meaning Truth CnfSem QueryLemmas Sym AtomBase TreeLemmas WalkLemmas AtomMain Form Master Block Ground Sat AtomCnf Evolve Names FirstOrder Answer Solver Dimacs Compute Run PropContext PropTruth PropCompute Optim PropOptim.
Local Open Scope string_scope.
Local Open Scope Z_scope.
Local Open Scope list_scope.

Definition show (nv : Z) (a : list Z) : string := sjoin nl (map line_text [OText "s SATISFIABLE"; OVals (all_literals nv a); OText ""]).
Lemma in_literals : forall nv a l, In l (all_literals nv a) <-> l = 0 \/ exists n, 1 <= n <= nv /\ l = if val_of a n then n else - n.
Proof.
  intros nv a l. unfold all_literals. rewrite in_app_iff, in_map_iff. split.
  - intros [(n & <- & X)|[<-|[]]]; auto. right. exists n. apply In_zrange in X. split; auto. lia.
  - intros [->|(n & X & ->)]; [simpl; auto|]. left. exists n. split; auto. apply In_zrange. lia.
Qed.
Lemma show_prints : forall nv a, 0 <= nv < 2 ^ 63 -> prints (show nv a) (all_literals nv a).
Proof.
  intros nv a B. exists [OText "s SATISFIABLE"; OVals (all_literals nv a); OText ""]. split; [discriminate|]. split; [|split; [reflexivity|simpl; now rewrite app_nil_r]].
  repeat (apply Forall_cons); [split; [reflexivity|discriminate]| |split; [reflexivity|exact Logic.I]|constructor].
  split; [unfold all_literals; intros X; apply app_eq_nil in X as [_ X]; discriminate|].
  apply Forall_forall. intros l Hl. apply in_literals in Hl as [->|(n & X & ->)]; unfold int64; [lia|]. destruct (val_of a n); lia.
Qed.
(* The k-th run looks for a model that also satisfies the clauses [want k]. *)
Definition guided_run (want : list clause) (file : string) : run_result :=
  match read_dimacs file with
  | Some (nv, _, cls) =>
      if legalb want then
        match solve (cls ++ want) with
        | Some a => RunExit 10 (show nv a) ""
        | None => ideal_run file
        end
      else ideal_run file
  | None => ideal_run file
  end.
Definition guided (want : nat -> list clause) : Compute.env :=
  mkEnv (fun _ => true) (fun _ => true) (fun _ _ => true) (fun k => guided_run (want k)) true.
Lemma guided_files : forall want, files_ok (guided want). Proof. intros want k. auto. Qed.
Lemma show_gives : forall nv a, 0 <= nv -> gives nv (all_literals nv a) (val_of a).
Proof.
  intros nv a B. split.
  - apply Forall_forall. intros l Hl. apply in_literals in Hl as [->|(n & X & ->)]; [simpl; lia|destruct (val_of a n); lia].
  - intros n Hn. rewrite !in_literals. split; split.
    + intros [X|(n' & X & E')]; [lia|]. destruct (val_of a n') eqn:V; [congruence|lia].
    + intros V. right. exists n. rewrite V. auto.
    + intros [X|(n' & X & E')]; [lia|]. destruct (val_of a n') eqn:V; [lia|]. assert (n = n') by lia. congruence.
    + intros V. right. exists n. rewrite V. auto.
Qed.
Lemma legalb_true : forall cls, legal cls -> legalb cls = true.
Proof.
  intros cls H. unfold legalb. apply forallb_forall. intros cl Hc. apply forallb_forall. intros l Hl. unfold legal in H. rewrite Forall_forall in H.
  specialize (H cl Hc). rewrite Forall_forall in H. specialize (H l Hl). apply negb_true_iff, Z.eqb_neq, H.
Qed.

Lemma guided_correct : forall want, correct_solver (guided want).
Proof.
  intros want k file nv nc cls R B CB. destruct (ideal_correct k file nv nc cls R B CB) as [I1 I2]. cbn [guided ideal e_run] in *.
  unfold guided_run. rewrite R. destruct (legalb (want k)) eqn:LW; [|split; assumption].
  assert (L : legal (cls ++ want k)) by (apply Forall_app; split; [exact (clauses_bound_legal _ _ CB)|now apply legalb_ok]).
  destruct (solve (cls ++ want k)) as [a|] eqn:S; [|split; assumption].
  destruct (solve_sat _ _ L S) as (_ & _ & _ & T). rewrite clauses_true_app in T. apply andb_true_iff in T as [T _]. split.
  - intros _. exists (show nv a), "", (all_literals nv a), (val_of a). split; auto. split; [now apply show_prints|]. split; [apply show_gives; lia|exact T].
  - intros H. rewrite H in T. discriminate.
Qed.

(* Step with a guided solver, when a model of the encoding satisfies the wish. *)
Lemma guided_Step : forall want q s c f c', enc q c = (Ok f, c') -> cnf_wf f -> tv f < 2 ^ 63 -> legal (want (bs_calls s)) ->
  (exists r, Models r f = true /\ clauses_true r (want (bs_calls s)) = true) ->
  exists out ls r, Step (guided want) q s c = (SSat, mkSolver out (S (bs_calls s)), c') /\ prints out ls /\ gives (tv f) ls r /\ Models r f = true /\
    clauses_true r (want (bs_calls s)) = true.
Proof.
  intros want q s c f c' EN (W0 & W1 & W2) B LW (r & Hr & Hw). unfold Step. cbn [guided e_tmp negb e_create]. rewrite EN.
  rewrite ToFile_ok by (intros i _; reflexivity). cbn [e_run]. assert (RD := read_ToBytes f (clauses_bound_legal _ _ W1) (clauses_bound_legal _ _ W2)).
  cbn [guided e_run bs_calls]. unfold guided_run. rewrite RD, (legalb_true _ LW). set (w := want (bs_calls s)) in *.
  assert (L : legal ((sClauses f ++ cClauses f) ++ w)).
  { apply Forall_app; split; [|exact LW]. apply Forall_app. split; [exact (clauses_bound_legal _ _ W1)|exact (clauses_bound_legal _ _ W2)]. }
  destruct (solve ((sClauses f ++ cClauses f) ++ w)) as [a|] eqn:S.
  - destruct (solve_sat _ _ L S) as (_ & _ & _ & T). rewrite clauses_true_app in T. apply andb_true_iff in T as [T1 T2].
    exists (show (tv f) a), (all_literals (tv f) a), (val_of a). split; [match goal with |- context [solve ?x] => assert (X : solve x = Some a) by exact S; rewrite X end; reflexivity|].
    split; [apply show_prints; lia|]. split; [now apply show_gives|]. split; [now rewrite Models_all|exact T2].
  - exfalso. pose proof (solve_unsat _ L S r) as U. rewrite clauses_true_app, <- Models_all, Hr, Hw in U. discriminate.
Qed.

(* The clauses that ask for the value e of v in the encoding of q. *)
Definition wish (m : model) (q : query) (v : string) (e : inst) : list clause :=
  match enc q (BasicQContext m) with
  | (Ok _, c) => map (fun i => [match vlookup (vm_vars (cVM c)) (v, i, feat e i) with Some n => n | None => 1 end]) (indices_below (Dim m))
  | _ => []
  end.

Lemma last_more : forall (l : list inst) d x, last (x :: l) d = last l x.
Proof. induction l as [|y l IH]; intros d x; auto. change (last (y :: l) d = last (y :: l) x). now rewrite (IH d y), (IH x y). Qed.

Section Chain.
Variables (m : model) (t : tree) (N : naming) (fg : QVar -> query) (og : QVar -> QConst -> query) (v : string).
Hypothesis P : problem m t N fg og v.

Lemma wish_step : forall want q s e, wf_query m t q -> tidy N (Dim m) q -> fits m q -> In v (block_vars q) ->
  (exists E, valid_env (Dim m) E /\ E v = e /\ matrix (Dim m) t E [] q) -> want (bs_calls s) = wish m q v e ->
  exists out c', Step (guided want) q s (BasicQContext m) = (SSat, mkSolver out (S (bs_calls s)), c') /\ cScoper c' = S0 /\ cModel c' = m /\
    Values out [v] c' = (Ok [mkQConst "" e], c').
Proof.
  intros want q s e W T F Hv (E & V & <- & M) HW.
  destruct (fresh_answer m t q N (pb_dim _ _ _ _ _ _ P) (fun _ => pb_tree _ _ _ _ _ _ P) W T) as (f & vm' & EN & A).
  unfold wish in HW. rewrite EN in HW. cbn [cVM] in HW.
  assert (LK : forall i, in_range (Dim m) i -> exists n, vlookup (vm_vars vm') (v, i, feat (E v) i) = Some n /\ 1 <= n).
  { intros i Hi. pose proof (an_mapped _ _ _ _ _ _ A v i (feat (E v) i) Hv Hi (valid_feat_at _ _ _ (V v))) as X. unfold mapped in X.
    destruct (vlookup (vm_vars vm') (v, i, feat (E v) i)) as [n|] eqn:L; [|congruence]. exists n. split; auto. destruct (an_inv _ _ _ _ _ _ A) as (_ & Y & _). now apply Y in L. }
  destruct (an_complete _ _ _ _ _ _ A E (fun _ => false) V M) as (r & _ & Hc & Hs & D). specialize (D v Hv).
  assert (TW : forall r', clauses_true r' (want (bs_calls s)) = true <-> forall i, in_range (Dim m) i -> read vm' r' (v, i, feat (E v) i) = true).
  { intros r'. rewrite HW. unfold clauses_true. rewrite forallb_forall. split.
    - intros H i Hi. destruct (LK i Hi) as (n & L & Hn). specialize (H [n]). unfold read. rewrite L.
      assert (X : In [n] (map (fun i => [match vlookup (vm_vars vm') (v, i, feat (E v) i) with Some n => n | None => 1 end]) (indices_below (Dim m)))).
      { apply in_map_iff. exists i. rewrite L. split; auto. now apply in_indices. }
      specialize (H X). unfold clause_true in H. cbn [existsb] in H. rewrite orb_false_r in H. unfold lit_true in H. destruct (0 <? n) eqn:Q; [exact H|lia].
    - intros H cl Hcl. apply in_map_iff in Hcl as (i & <- & Hi). apply in_indices in Hi. destruct (LK i Hi) as (n & L & Hn). specialize (H i Hi). unfold read in H. rewrite L in *.
      unfold clause_true. cbn [existsb]. rewrite orb_false_r. unfold lit_true. destruct (0 <? n) eqn:Q; [exact H|lia]. }
  destruct (guided_Step want q s _ f _ EN (an_wf _ _ _ _ _ _ A) (F _ _ EN)) as (out & ls & r1 & ST & PR & GV & HM & HT).
  - rewrite HW. apply Forall_forall. intros cl Hcl. apply in_map_iff in Hcl as (i & <- & Hi). apply in_indices in Hi. destruct (LK i Hi) as (n & L & Hn). rewrite L. constructor; [lia|constructor].
  - exists r. split; [unfold Models; now rewrite Hc, Hs|]. apply TW. intros i Hi.
    pose proof (an_one _ _ _ _ _ _ A r v Hc Hv) as RP. rewrite D in RP. destruct RP as [_ RP]. rewrite (RP i Hi _ (valid_feat_at _ _ _ (V v))). apply Z.eqb_refl.
  - destruct (solved_values m t q _ f vm' out ls (tv f) r1 A PR GV (Z.le_refl _) HM) as (E1 & [F1 F2 F3 F4 F5]).
    exists out, (mkCtx S0 vm' m). split; [exact ST|]. split; auto. split; auto.
    rewrite (F5 [v]) by (intros w [<-|[]]; auto). cbn [map]. do 4 f_equal.
    apply (inst_ext (Dim m)); [apply F2|apply V|]. intros i Hi. rewrite TW in HT. specialize (HT i Hi).
    pose proof (valid_feat_at _ _ i (F2 v)) as V1. pose proof (valid_feat_at _ _ i (V v)) as V2.
    destruct (F4 v i (feat (E1 v) i) Hv Hi V1) as (n & L & X). cbn [cVM] in L.
    assert (In n ls) as Hn by now apply X.
    assert (R1 : read vm' r1 (v, i, feat (E1 v) i) = true).
    { unfold read. rewrite L. destruct GV as [GB GV]. rewrite Forall_forall in GB. specialize (GB n Hn).
      assert (1 <= n) by (destruct (an_inv _ _ _ _ _ _ A) as (_ & Y & _); now apply Y in L). apply GV; auto; lia. }
    unfold Models in HM. apply andb_true_iff in HM as [_ HC]. destruct (an_one _ _ _ _ _ _ A r1 v HC Hv) as [_ RP].
    rewrite (RP i Hi _ V2) in HT. rewrite (RP i Hi _ V1) in R1. apply Z.eqb_eq in HT, R1. congruence.
Qed.

(* The queries of the successive Steps, each with the value it is to return. *)
Definition step_query (prev : option inst) : query :=
  match prev with None => QWith v (fg v) | Some e => QWith v (QAnd (fg v) (og v (mkQConst "" e))) end.
Fixpoint wishes (prev : option inst) (es : list inst) (k : nat) : list clause :=
  match es with
  | [] => []
  | e :: r => match k with O => wish m (step_query prev) v e | Datatypes.S k => wishes (Some e) r k end
  end.

(* Solutions, each below the one before it; nothing is below the last one. *)
Fixpoint walk_down (e : inst) (es : list inst) : Prop :=
  satisfies (Dim m) t v (fg v) e /\
  match es with
  | [] => forall e', satisfies (Dim m) t v (fg v) e' -> ~ satisfies (Dim m) t v (og v (mkQConst "" e)) e'
  | e' :: r => satisfies (Dim m) t v (og v (mkQConst "" e)) e' /\ walk_down e' r
  end.

Lemma walk_loop : forall es e want s c fuel k, (length es < fuel)%nat -> walk_down e es ->
  (forall i, want (bs_calls s + i)%nat = wishes (Some e) es i) -> holding m t fg v s c e ->
  exists s' c', opt_loop fuel (guided want) fg og v s c k = (Ok (mkOpt true (mkQConst "" (last es e)) (k + Z.of_nat (length es) + 1)), s', c').
Proof.
  induction es as [|e' es IH]; intros e want s c fuel k Hf HW Hwant H; (destruct fuel as [|fuel]; [simpl in Hf; lia|]); cbn [walk_down length] in *.
  - destruct HW as [M Q]. destruct (turn (guided want) m t N fg og v P (guided_files _) (guided_correct _) s c e fuel k H) as [(e1 & s1 & c1 & _ & H1 & B1 & _)|(_ & s1 & c1 & R & _)].
    + elim (Q e1); [exact (hd_meets _ _ _ _ _ _ _ H1)|exact B1].
    + exists s1, c1. rewrite R. cbn [last]. do 4 f_equal. lia.
  - destruct HW as (M & B & HW). cbn [opt_loop]. rewrite (hd_value _ _ _ _ _ _ _ H), (reset_fresh m t fg v _ _ _ H).
    pose proof (satisfies_valid _ _ _ _ _ M) as V. destruct (pb_order _ _ _ _ _ _ P e V) as (W & T & F).
    assert (M' : satisfies (Dim m) t v (fg v) e') by (destruct es; apply HW).
    assert (Q : satisfies (Dim m) t v (QAnd (fg v) (og v (mkQConst "" e))) e') by (apply (loop_query m t N fg og v P e e' V); split; [exact M'|exact B]).
    destruct (wish_step want (QWith v (QAnd (fg v) (og v (mkQConst "" e)))) s e' W T F) as (out & c1 & ST & X1 & X2 & X3); [simpl; auto|exact Q| |].
    { specialize (Hwant O). rewrite Nat.add_0_r in Hwant. exact Hwant. }
    rewrite ST. destruct (IH e' want (mkSolver out (Datatypes.S (bs_calls s))) c1 fuel (k + 1)) as (s' & c' & R); [lia|exact HW| | |].
    + intros i. cbn [bs_calls]. specialize (Hwant (Datatypes.S i)). rewrite Nat.add_succ_r in Hwant. exact Hwant.
    + constructor; auto.
    + exists s', c'. rewrite R. rewrite (last_more es e e'). do 4 f_equal. lia.
Qed.

Lemma walk_optim : forall es e s fuel, (length es < fuel)%nat -> walk_down e es ->
  exists E, files_ok E /\ correct_solver E /\ e_opttmp E = true /\
  exists s' c', ComputeOptim fuel E fg og v (BasicQContext m) s = (Ok (mkOpt true (mkQConst "" (last es e)) (Z.of_nat (length es) + 2)), s', c').
Proof.
  intros es e s fuel Hf HW. set (want := fun k => wishes None (e :: es) (k - bs_calls s)). exists (guided want).
  split; [apply guided_files|]. split; [apply guided_correct|]. split; [reflexivity|].
  assert (M : satisfies (Dim m) t v (fg v) e) by (destruct es; apply HW).
  unfold ComputeOptim. cbn [guided e_opttmp negb]. fold (guided want). destruct (pb_formula _ _ _ _ _ _ P) as (W & T & F).
  destruct (wish_step want (QWith v (fg v)) s e W T F) as (out & c1 & ST & X1 & X2 & X3); [simpl; auto|exact M| |].
  { unfold want. rewrite Nat.sub_diag. reflexivity. }
  rewrite ST. destruct (walk_loop es e want (mkSolver out (Datatypes.S (bs_calls s))) c1 fuel 1 Hf HW) as (s' & c' & R).
  - intros i. unfold want. cbn [bs_calls]. replace (Datatypes.S (bs_calls s) + i - bs_calls s)%nat with (Datatypes.S i) by lia. reflexivity.
  - constructor; auto.
  - exists s', c'. rewrite R. do 4 f_equal. lia.
Qed.
End Chain.
