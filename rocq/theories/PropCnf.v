(* Properties C01-C05 and C41: package cnf. *)
From Verif Require Import GoBase Cnf CnfSem CnfHist Dimacs.
Local Open Scope Z_scope.

(* ---- C01 ---- *)

(* Under the consistency clauses of the negation, the semantic clauses are
   negated and the consistency clauses of the operand still hold. *)
Theorem C01_negate_is_negation : forall c k r,
  built nonzero c ->
  Con r (Negate c k) = true ->
  Con r c = true /\ Sem r (Negate c k) = negb (Sem r c).
Proof.
  intros c k r Hb Hc. apply (Negate_spec c k (built_wf c Hb)). exact Hc.
Qed.
Print Assumptions C01_negate_is_negation.

(* A case with a unit clause, a long clause and consistency clauses: the
   negation is satisfiable in both ways. *)
Definition ex_cnf : CNF := AppendConsistency (FromClauses [[1]; [2; -3; 4]]) [[1; 2]].
Example ex_built : built nonzero ex_cnf.
Proof. repeat constructor; discriminate. Qed.
Example C01_case :
  Con (fun x => (x =? 2) || (x =? 6)) (Negate ex_cnf (Some 4)) = true /\
  Sem (fun x => (x =? 2) || (x =? 6)) (Negate ex_cnf (Some 4)) = true /\
  Con (fun x => (x =? 1) || (x =? 2)) (Negate ex_cnf (Some 4)) = true /\
  Sem (fun x => (x =? 1) || (x =? 2)) (Negate ex_cnf (Some 4)) = false.
Proof. vm_compute. auto. Qed.

(* ---- C02 ---- *)

(* Every valuation of the operand's consistency clauses extends, changing only
   variables above max(TopV, k), in exactly one way up to the new TopV. *)
Theorem C02_negate_fresh_definitions : forall c k,
  built nonzero c ->
  let top := Z.max (TopV c) k in
  (forall r, Con r c = true ->
     exists r', agree top r r' /\ Con r' (Negate c (Some k)) = true) /\
  (forall r r', agree top r r' ->
     Con r (Negate c (Some k)) = true -> Con r' (Negate c (Some k)) = true ->
     agree (TopV (Negate c (Some k))) r r').
Proof.
  intros c k Hb. cbv zeta.
  destruct (Negate_spec c (Some k) (built_wf c Hb)) as (_ & _ & _ & H1 & H2).
  split; [exact H1|exact H2].
Qed.
Print Assumptions C02_negate_fresh_definitions.

Theorem C02_negation_satisfiable_iff : forall c k,
  built nonzero c ->
  (exists r, Models r (Negate c k) = true) <->
  (exists r, Con r c = true /\ Sem r c = false).
Proof.
  intros c k Hb.
  destruct (Negate_spec c k (built_wf c Hb)) as (_ & _ & H1 & H2 & _).
  split.
  - intros (r & Hr). apply andb_true_iff in Hr as [HS HC].
    destruct (H1 r HC) as [A B]. exists r. split; auto.
    rewrite HS in B. destruct (Sem r c); auto; discriminate.
  - intros (r & HC & HS). destruct (H2 r HC) as (r' & Ag & HC').
    exists r'. unfold Models. rewrite HC'. destruct (H1 r' HC') as [_ ->].
    assert (E : Sem r' c = Sem r c).
    { symmetry. apply (clauses_true_agree (neg_topv c k)); auto.
      eapply clauses_bound_weaken; [|apply (built_wf c Hb)].
      unfold neg_topv; destruct k; lia. }
    now rewrite E, HS.
Qed.
Print Assumptions C02_negation_satisfiable_iff.

Example C02_case : exists r, Models r (Negate ex_cnf (Some 10)) = true.
Proof. exists (fun x => (x =? 2) || (x =? 12)). reflexivity. Qed.

(* ---- C03 ---- *)

Theorem C03_conjunction : forall a b r,
  Sem r (Conjunction a b) = Sem r a && Sem r b /\
  Con r (Conjunction a b) = Con r a && Con r b.
Proof. intros; split; [apply Sem_Conjunction|apply Con_Conjunction]. Qed.
Print Assumptions C03_conjunction.

Theorem C03_append_exact : forall c cls,
  (sClauses (AppendSemantics c cls) = sClauses c ++ cls /\
   cClauses (AppendSemantics c cls) = cClauses c) /\
  (sClauses (AppendConsistency c cls) = sClauses c /\
   cClauses (AppendConsistency c cls) = cClauses c ++ cls) /\
  (sClauses (FromClauses cls) = cls /\ cClauses (FromClauses cls) = []) /\
  (forall oc, sClauses (Conjunction c oc) = sClauses c ++ sClauses oc /\
              cClauses (Conjunction c oc) = cClauses c ++ cClauses oc).
Proof. repeat split. Qed.
Print Assumptions C03_append_exact.

Example C03_case :
  Models (fun x => x =? 1) (Conjunction (FromClauses [[1]]) (AppendConsistency TrueCNF [[-2]])) = true /\
  Models (fun _ => true) (Conjunction (FromClauses [[1]]) (AppendConsistency TrueCNF [[-2]])) = false.
Proof. split; reflexivity. Qed.

(* ---- C04 ---- *)

(* Whatever the clause arguments (zero literals included). *)
Theorem C04_topv_bounds_literals : forall c, built any c ->
  0 <= TopV c /\
  (forall cl l, In cl (sClauses c) \/ In cl (cClauses c) -> In l cl -> Z.abs l <= TopV c).
Proof. exact built_bounded. Qed.
Print Assumptions C04_topv_bounds_literals.

Theorem C04_topv_never_decreases : forall c c2 cls k, built any c -> built any c2 ->
  TopV c <= TopV (AppendSemantics c cls) /\
  TopV c <= TopV (AppendConsistency c cls) /\
  TopV c <= TopV (Conjunction c c2) /\
  TopV c <= TopV (Negate c (Some k)) /\ k <= TopV (Negate c (Some k)) /\
  TopV c <= TopV (Negate c None).
Proof. exact top_monotone. Qed.
Print Assumptions C04_topv_never_decreases.

Theorem C04_no_zero_literal : forall c, built nonzero c ->
  forall cl, In cl (sClauses c) \/ In cl (cClauses c) -> ~ In 0 cl.
Proof.
  intros c Hb cl Hin H0. destruct (built_legal c Hb) as [HS HC].
  unfold legal_clauses in *. rewrite Forall_forall in HS, HC.
  destruct Hin as [Hi|Hi]; [specialize (HS _ Hi) as HF|specialize (HC _ Hi) as HF];
    rewrite Forall_forall in HF; specialize (HF _ H0); congruence.
Qed.
Print Assumptions C04_no_zero_literal.

Example C04_case : built any (Conjunction (Negate ex_cnf (Some 9)) (Negate (FromClauses [[7; 0]; [-8]]) None))
  /\ TopV (Conjunction (Negate ex_cnf (Some 9)) (Negate (FromClauses [[7; 0]; [-8]]) None)) = 11.
Proof. split; [repeat constructor|reflexivity]. Qed.

(* ---- C05 ---- *)

Theorem C05_dimacs_roundtrip : forall c,
  built nonzero c ->
  read_dimacs (ToBytes c)
  = Some (TopV c, Z.of_nat (length (sClauses c ++ cClauses c)), sClauses c ++ cClauses c).
Proof.
  intros c Hb. destruct (built_legal c Hb). rewrite read_ToBytes by auto.
  now rewrite app_length.
Qed.
Print Assumptions C05_dimacs_roundtrip.

Theorem C05_tofile : forall create wok c,
  (exists e, ToFile create wok c = Err e) \/
  (create = true /\
   (forall i, (i <= length (sClauses c) + length (cClauses c))%nat -> wok i = true) /\
   ToFile create wok c = Ok (ToBytes c)).
Proof. exact ToFile_cases. Qed.
Print Assumptions C05_tofile.

Theorem C05_tofile_success : forall wok c,
  (forall i, (i <= length (sClauses c) + length (cClauses c))%nat -> wok i = true) ->
  ToFile true wok c = Ok (ToBytes c).
Proof. exact ToFile_ok. Qed.
Print Assumptions C05_tofile_success.

Example C05_case :
  ToBytes (AppendConsistency (FromClauses [[1; -20]; []]) [[3]])
  = ("p cnf 20 3" ++ newline ++ "1 -20 0" ++ newline ++ "0" ++ newline ++ "3 0" ++ newline)%string
  /\ ToFile true (fun k => (k <? 2)%nat) (FromClauses [[1]; [2]; [3]]) = Err io_error.
Proof. split; reflexivity. Qed.

(* ---- C41 ---- *)

Theorem C41_trivially_true : forall c, TriviallyTrue c = true -> forall r, Models r c = true.
Proof.
  intros [t s k] H r. unfold TriviallyTrue in H. simpl in H.
  apply andb_true_iff in H as [H1 H2]. destruct s, k; try discriminate. reflexivity.
Qed.
Print Assumptions C41_trivially_true.

Theorem C41_trivially_false : forall c, TriviallyFalse c = true -> forall r, Models r c = false.
Proof.
  intros c H r.
  assert (E : forall cls : list clause, existsb (fun cl => (length cl =? 0)%nat) cls = true -> clauses_true r cls = false).
  { induction cls as [|[|l cl] cls IH]; simpl; intros Hc; try discriminate; auto.
    rewrite IH by auto. apply andb_false_r. }
  unfold TriviallyFalse in H. unfold Models, Sem, Con.
  destruct (existsb _ (sClauses c)) eqn:E1.
  - now rewrite E.
  - destruct (existsb _ (cClauses c)) eqn:E2; [|discriminate].
    rewrite (E (cClauses c)) by auto. apply andb_false_r.
Qed.
Print Assumptions C41_trivially_false.

Theorem C41_constants_recognised :
  TriviallyTrue TrueCNF = true /\ TriviallyFalse FalseCNF = true /\
  TriviallyTrue FalseCNF = false /\ TriviallyFalse TrueCNF = false /\
  (forall c, TriviallyTrue c = true -> TriviallyFalse (Negate c None) = true).
Proof.
  repeat split. intros [t s k] H. unfold TriviallyTrue in H. simpl in H.
  apply andb_true_iff in H as [H1 H2]. destruct s, k; try discriminate. reflexivity.
Qed.
Print Assumptions C41_constants_recognised.
