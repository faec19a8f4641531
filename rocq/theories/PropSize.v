(* Property C44: the size of encodings. *)
From Verif Require Import GoBase GoLemmas Cnf Query Walk Atoms Logop Spec Meaning CnfSem QueryLemmas Sym AtomBase Form Master Ground AtomCnf Evolve Errors PropContext PropCompute Size.
Local Open Scope string_scope.
Local Open Scope list_scope.
Local Open Scope nat_scope.

(* ---- specification ---- *)

Definition clauses (f : CNF) : list clause := sClauses f ++ cClauses f.
Definition literals (f : CNF) : nat := length (concat (clauses f)).

(* A polynomial in the features and the nodes. *)
Definition unit_size (d n : nat) : nat := 300 * ((d + 1) * (d + 1)) + 80 * ((n + 1) * (n + 1) * (d + 1)).
(* Components and operators of a query. *)
Fixpoint qlen (q : query) : nat :=
  match q with
  | QNil => 0
  | QAtom _ => 1
  | QNot q => S (qlen q)
  | QAnd q1 q2 | QOr q1 q2 => S (qlen q1 + qlen q2)
  | QWith _ q | QAll _ q => S (qlen q)
  end.
(* Nesting of guarded quantifiers. *)
Fixpoint qdepth (q : query) : nat :=
  match q with
  | QNil | QAtom _ => 0
  | QNot q | QWith _ q => qdepth q
  | QAnd q1 q2 | QOr q1 q2 => max (qdepth q1) (qdepth q2)
  | QAll _ q => S (qdepth q)
  end.

(* ---- proofs ---- *)

Definition phi (z : size) : nat := zC z + zK z + zT z + 8 * (zS z + zL z).
Lemma phi_add : forall a b, phi (sadd a b) = phi a + phi b.
Proof. intros. unfold phi. cbn. lia. Qed.
Lemma phi_mul : forall k a, phi (smul k a) = k * phi a.
Proof. intros. unfold phi. cbn [smul zS zL zC zK zT]. lia. Qed.
Lemma phi_neg : forall a, phi (sneg a) <= phi a + 19.
Proof. intros. unfold phi. cbn [sneg zS zL zC zK zT]. lia. Qed.
Lemma phi_atom : forall d n a, phi (asize d n a) <= unit_size d n.
Proof.
  intros d n a. unfold phi, unit_size. destruct a; cbn [asize zS zL zC zK zT]; unfold counter; lia.
Qed.
Lemma phi_query : forall d n q, phi (qsize d n q) <= qlen q * unit_size d n * Nat.max 1 n ^ qdepth q.
Proof.
  intros d n. assert (U : 380 <= unit_size d n /\ 22 * d <= unit_size d n) by (unfold unit_size; lia). set (u := unit_size d n) in *.
  assert (P : forall k, 1 <= Nat.max 1 n ^ k) by (intros k; apply Nat.neq_0_lt_0, Nat.pow_nonzero; lia).
  assert (Q : forall a b, a <= b -> Nat.max 1 n ^ a <= Nat.max 1 n ^ b) by (intros; apply Nat.pow_le_mono_r; lia).
  assert (T : forall l1 l2 k1 k2 x, x <= u -> l1 * u * Nat.max 1 n ^ k1 + l2 * u * Nat.max 1 n ^ k2 + x <= S (l1 + l2) * u * Nat.max 1 n ^ (Nat.max k1 k2)).
  { intros l1 l2 k1 k2 x H. pose proof (Q _ _ (Nat.le_max_l k1 k2)) as A. pose proof (Q _ _ (Nat.le_max_r k1 k2)) as B. pose proof (P (Nat.max k1 k2)) as C.
    set (p := Nat.max 1 n ^ Nat.max k1 k2) in *. set (p1 := Nat.max 1 n ^ k1) in *. set (p2 := Nat.max 1 n ^ k2) in *.
    assert (l1 * u * p1 <= l1 * u * p) by (apply Nat.mul_le_mono_l; auto). assert (l2 * u * p2 <= l2 * u * p) by (apply Nat.mul_le_mono_l; auto).
    assert (u * 1 <= u * p) by (apply Nat.mul_le_mono_l; auto). lia. }
  assert (T1 : forall l k x, x <= u -> l * u * Nat.max 1 n ^ k + x <= S l * u * Nat.max 1 n ^ k).
  { intros l k x H. pose proof (P k). assert (u * 1 <= u * Nat.max 1 n ^ k) by (apply Nat.mul_le_mono_l; auto). lia. }
  induction q as [|a|q IH|q1 IH1 q2 IH2|q1 IH1 q2 IH2|v q IH|k q IH]; cbn [qsize qlen qdepth].
  - cbn. lia.
  - pose proof (phi_atom d n a) as H. fold u in H. cbn [Nat.pow]. lia.
  - pose proof (phi_neg (qsize d n q)). pose proof (T1 (qlen q) (qdepth q) 19). lia.
  - rewrite phi_add. pose proof (T (qlen q1) (qlen q2) (qdepth q1) (qdepth q2) 0). lia.
  - pose proof (phi_neg (sadd (sneg (qsize d n q1)) (sneg (qsize d n q2)))) as H. rewrite phi_add in H. pose proof (phi_neg (qsize d n q1)). pose proof (phi_neg (qsize d n q2)).
    pose proof (T (qlen q1) (qlen q2) (qdepth q1) (qdepth q2) 57). lia.
  - rewrite phi_add. assert (W : phi (withsize d) = 22 * d) by (unfold phi; cbn [withsize zS zL zC zK zT]; lia). rewrite W.
    pose proof (T1 (qlen q) (qdepth q) (22 * d)). lia.
  - rewrite phi_mul. cbn [Nat.pow]. assert (n * phi (qsize d n q) <= Nat.max 1 n * (qlen q * u * Nat.max 1 n ^ qdepth q)) by (apply Nat.mul_le_mono; lia).
    assert (qlen q * u * (Nat.max 1 n * Nat.max 1 n ^ qdepth q) <= S (qlen q) * u * (Nat.max 1 n * Nat.max 1 n ^ qdepth q)).
    { apply Nat.mul_le_mono_r, Nat.mul_le_mono_r. lia. } lia.
Qed.

(* ---- C44 ---- *)

(* Every query, by structure: what each kind of component and operator may add,
   in any context. *)
Theorem C44_structure : forall q c f c', good_ctx c -> enc q c = (Ok f, c') ->
  let z := qsize (Dim (cModel c)) (length (Nodes (cModel c))) q in
  length (sClauses f) <= zS z /\ length (concat (sClauses f)) <= zL z /\ length (cClauses f) <= zC z /\ length (concat (cClauses f)) <= zK z /\
  (vm_topv (cVM c') <= vm_topv (cVM c) + Z.of_nat (zT z))%Z /\ (tv f <= vm_topv (cVM c'))%Z.
Proof.
  intros q c f c' G E z. destruct (sized_enc (Dim (cModel c)) (length (Nodes (cModel c))) q c f c') as (_ & (_ & B) & (W1 & W2 & W3 & W4) & (_ & T)); [split; auto|exact E|].
  unfold lits in *. auto 10.
Qed.
Print Assumptions C44_structure.

(* A closed bound: polynomial for a fixed nesting of quantifiers. *)
Theorem C44_polynomial : forall q c f c', good_ctx c -> enc q c = (Ok f, c') ->
  let n := length (Nodes (cModel c)) in
  let bound := qlen q * unit_size (Dim (cModel c)) n * Nat.max 1 n ^ qdepth q in
  length (clauses f) <= bound /\ literals f <= bound /\ (vm_topv (cVM c') <= vm_topv (cVM c) + Z.of_nat bound)%Z /\ (tv f <= vm_topv (cVM c'))%Z.
Proof.
  intros q c f c' G E n bound. destruct (C44_structure q c f c' G E) as (W1 & W2 & W3 & W4 & T & B). fold n in W1, W2, W3, W4, T.
  pose proof (phi_query (Dim (cModel c)) n q) as P. fold bound in P. unfold phi in P. unfold literals, clauses.
  rewrite concat_app, !app_length. unfold clause in *. split; [lia|]. split; [lia|]. split; [lia|exact B].
Qed.
Print Assumptions C44_polynomial.

(* The numbers of a query's variables are ints when the bound is. *)
Theorem C44_fits : forall m q, (Z.of_nat (qlen q * unit_size (Dim m) (length (Nodes m)) * Nat.max 1 (length (Nodes m)) ^ qdepth q) < 2 ^ 63)%Z -> fits m q.
Proof.
  intros m q H f c' E. destruct (C44_polynomial q (BasicQContext m) f c' (fresh_good m) E) as (_ & _ & T & B).
  change (vm_topv (cVM (BasicQContext m))) with 0%Z in T. cbn [BasicQContext cModel] in *. lia.
Qed.
Print Assumptions C44_fits.

(* A quantifier over a component with a declared variable. *)
Definition sized_query : query := QWith "x" (QAll (mkQConst "k" []) (QOr (QNot (QAtom (SubsVC "x" (mkQConst "k" [])))) (QAtom (FullV "x")))).
Example C44_case : good_ctx (BasicQContext stump) /\ qdepth sized_query = 1 /\ qlen sized_query = 6 /\
  qsize 2 3 sized_query = mkSize 3 3 101 219 75 /\
  exists f c', enc sized_query (BasicQContext stump) = (Ok f, c') /\ length (clauses f) = 42 /\ literals f = 96 /\ vm_topv (cVM c') = 15%Z.
Proof.
  split; [apply fresh_good|]. split; [reflexivity|]. split; [reflexivity|]. split; [vm_compute; reflexivity|].
  eexists. eexists. split; [vm_compute; reflexivity|]. vm_compute. auto.
Qed.
