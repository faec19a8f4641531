(* Properties C28, C29: optimal instances and the number of solver calls. *)
From Verif Require Import GoBase GoLemmas Cnf Query Walk Atoms Logop Spec Meaning Truth CnfSem QueryLemmas Sym AtomBase TreeLemmas WalkLemmas AtomMain Form Master Block Ground Sat AtomCnf Evolve Names FirstOrder Answer Solver Dimacs Compute Run PropContext PropTruth PropCompute Optim.
Local Open Scope string_scope.
Local Open Scope Z_scope.
Local Open Scope list_scope.

(* ---- C28 ---- *)

(* No instance satisfies the formula. *)
Theorem C28_none : forall E m t N fg og v fuel s, problem m t N fg og v -> files_ok E -> correct_solver E -> e_opttmp E = true ->
  (forall e, ~ satisfies (Dim m) t v (fg v) e) ->
  exists s' c', ComputeOptim fuel E fg og v (BasicQContext m) s = (Ok (mkOpt false (mkQConst "" []) 1), s', c') /\ bs_calls s' = S (bs_calls s).
Proof.
  intros E m t N fg og v fuel s P FO CS ET H. unfold ComputeOptim. rewrite ET. cbn [negb].
  destruct (first_step E m t N fg og v P FO CS s) as [(e & s' & c' & X1 & X2 & X3)|(_ & s' & c' & X1 & X2)]; rewrite X1.
  - elim (H e). apply X3.
  - exists s', c'. auto.
Qed.
Print Assumptions C28_none.

(* Some does, and the order is a strict partial order on those that do: 3^dim
   turns are enough, and the answer is an optimal instance. *)
Theorem C28_optimal : forall E m t N fg og v fuel s, problem m t N fg og v -> files_ok E -> correct_solver E -> e_opttmp E = true ->
  let ok := satisfies (Dim m) t v (fg v) in
  let lt e' e := satisfies (Dim m) t v (og v (mkQConst "" e)) e' in
  (exists e, ok e) -> (forall e, ok e -> ~ lt e e) -> (forall e1 e2 e3, ok e1 -> ok e2 -> ok e3 -> lt e1 e2 -> lt e2 e3 -> lt e1 e3) ->
  (3 ^ Dim m <= fuel)%nat ->
  exists e n s' c', ComputeOptim fuel E fg og v (BasicQContext m) s = (Ok (mkOpt true (mkQConst "" e) n), s', c') /\
    ok e /\ (forall e', ok e' -> ~ lt e' e) /\ n = Z.of_nat (bs_calls s' - bs_calls s) /\ 2 <= n <= Z.of_nat (3 ^ Dim m) + 1.
Proof.
  intros E m t N fg og v fuel s P FO CS ET ok lt (e0 & H0) IR TR B. unfold ComputeOptim. rewrite ET. cbn [negb].
  destruct (first_step E m t N fg og v P FO CS s) as [(e & s1 & c1 & X1 & X2 & X3)|(X & _)]; [|elim (X e0 H0)]. rewrite X1.
  destruct (loop_strict E m t N fg og v P FO CS (conj IR TR) fuel s1 c1 e 1 [] X3) as (out & s' & c' & R & L);
    [repeat constructor; intros []|intros x []|cbn [length]; lia|].
  destruct (loop_ok E m t N fg og v P FO CS _ _ _ _ _ _ _ _ X3 R) as (e' & A1 & A2 & A3 & A4 & A5 & A6).
  exists e', (oCalls out), s', c'. rewrite R. destruct out as [a b k]. cbn [oFound oValue oCalls] in *. subst a b. cbn [length] in L.
  split; [reflexivity|]. split; [exact A3|]. split; [exact A4|]. split; lia.
Qed.
Print Assumptions C28_optimal.

(* Whatever the order and the number of turns: it does not fail, and what it
   returns is optimal. *)
Theorem C28_whatever_order : forall E m t N fg og v fuel s, problem m t N fg og v -> files_ok E -> correct_solver E -> e_opttmp E = true ->
  let ok := satisfies (Dim m) t v (fg v) in
  let lt e' e := satisfies (Dim m) t v (og v (mkQConst "" e)) e' in
  exists r s' c', ComputeOptim fuel E fg og v (BasicQContext m) s = (r, s', c') /\
    ((r = Hang /\ exists e, ok e) \/
     (r = Ok (mkOpt false (mkQConst "" []) 1) /\ forall e, ~ ok e) \/
     (exists e, r = Ok (mkOpt true (mkQConst "" e) (Z.of_nat (bs_calls s' - bs_calls s))) /\ ok e /\ forall e', ok e' -> ~ lt e' e)).
Proof.
  intros E m t N fg og v fuel s P FO CS ET ok lt. unfold ComputeOptim. rewrite ET. cbn [negb].
  destruct (first_step E m t N fg og v P FO CS s) as [(e & s1 & c1 & X1 & X2 & X3)|(X & s1 & c1 & X1 & X2)]; rewrite X1.
  - destruct (loop_total E m t N fg og v P FO CS fuel s1 c1 e 1 X3) as [(out & s' & c' & R)|(s' & c' & R)]; rewrite R; do 3 eexists; (split; [reflexivity|]).
    + right. right. destruct (loop_ok E m t N fg og v P FO CS _ _ _ _ _ _ _ _ X3 R) as (e' & A1 & A2 & A3 & A4 & A5 & A6).
      exists e'. destruct out as [a b k]. cbn [oFound oValue oCalls] in *. subst a b. split; [|split; [exact A3|exact A4]]. do 2 f_equal. lia.
    + left. split; auto. exists e. apply X3.
  - do 3 eexists. split; [reflexivity|]. right. left. auto.
Qed.
Print Assumptions C28_whatever_order.

(* ---- C45: an order without minimal elements ---- *)

Theorem C45_never_ends : forall E m t N fg og v fuel s, problem m t N fg og v -> files_ok E -> correct_solver E -> e_opttmp E = true ->
  let ok := satisfies (Dim m) t v (fg v) in
  let lt e' e := satisfies (Dim m) t v (og v (mkQConst "" e)) e' in
  (exists e, ok e) -> (forall e, ok e -> exists e', ok e' /\ lt e' e) ->
  exists s' c', ComputeOptim fuel E fg og v (BasicQContext m) s = (Hang, s', c').
Proof.
  intros E m t N fg og v fuel s P FO CS ET ok lt (e0 & H0) D. unfold ComputeOptim. rewrite ET. cbn [negb].
  destruct (first_step E m t N fg og v P FO CS s) as [(e & s1 & c1 & X1 & X2 & X3)|(X & _)]; [|elim (X e0 H0)]. rewrite X1.
  eapply loop_endless; eauto.
Qed.
Print Assumptions C45_never_ends.
Theorem C45_reflexive : forall E m t N fg og v fuel s, problem m t N fg og v -> files_ok E -> correct_solver E -> e_opttmp E = true ->
  let ok := satisfies (Dim m) t v (fg v) in
  let lt e' e := satisfies (Dim m) t v (og v (mkQConst "" e)) e' in
  (exists e, ok e) -> (forall e, ok e -> lt e e) -> exists s' c', ComputeOptim fuel E fg og v (BasicQContext m) s = (Hang, s', c').
Proof.
  intros E m t N fg og v fuel s P FO CS ET ok lt X R. apply (C45_never_ends E m t N fg og v fuel s P FO CS ET X). intros e He. exists e. split; auto. now apply R.
Qed.
Print Assumptions C45_reflexive.

(* ---- C29 ---- *)

Theorem C29_measure : forall E m t N fg og v fuel s (mu : inst -> nat) B, problem m t N fg og v -> files_ok E -> correct_solver E -> e_opttmp E = true ->
  let ok := satisfies (Dim m) t v (fg v) in
  let lt e' e := satisfies (Dim m) t v (og v (mkQConst "" e)) e' in
  (forall e, ok e -> (mu e <= B)%nat) -> (forall e e', ok e -> ok e' -> lt e' e -> (mu e' < mu e)%nat) -> (B < fuel)%nat ->
  exists out s' c', ComputeOptim fuel E fg og v (BasicQContext m) s = (Ok out, s', c') /\ oCalls out = Z.of_nat (bs_calls s' - bs_calls s) /\ oCalls out <= Z.of_nat B + 2 /\
    (oFound out = true <-> exists e, ok e).
Proof.
  intros E m t N fg og v fuel s mu B P FO CS ET ok lt MB MD F. unfold ComputeOptim. rewrite ET. cbn [negb].
  destruct (first_step E m t N fg og v P FO CS s) as [(e & s1 & c1 & X1 & X2 & X3)|(X & s1 & c1 & X1 & X2)]; rewrite X1.
  - pose proof (MB e (hd_meets _ _ _ _ _ _ _ X3)). destruct (loop_measure E m t N fg og v P FO CS mu MD (S B) s1 c1 e fuel 1 X3) as (out & s' & c' & R & L); try lia.
    destruct (loop_ok E m t N fg og v P FO CS _ _ _ _ _ _ _ _ X3 R) as (e' & A1 & A2 & A3 & A4 & A5 & A6).
    exists out, s', c'. rewrite R. split; auto. split; [lia|]. split; [lia|]. rewrite A1. split; auto. intros _. exists e. apply X3.
  - do 3 eexists. split; [reflexivity|]. cbn [oCalls oFound]. split; [lia|]. split; [lia|]. split; [discriminate|]. intros (e & He). elim (X e He).
Qed.
Print Assumptions C29_measure.

(* The strict orders of the README and the examples, and their inverses. *)
Definition strictly (le ge : atom) : query := QAnd (QAtom le) (QNot (QAtom ge)).
Definition subs_min : QVar -> QConst -> query := fun v u => strictly (SubsVC v u) (SubsCV u v).
Definition subs_max : QVar -> QConst -> query := fun v u => strictly (SubsCV u v) (SubsVC v u).
Definition lel_min (g : gen1) : QVar -> QConst -> query := fun v u => strictly (LelVC v u g) (LelCV u v g).
Definition lel_max (g : gen1) : QVar -> QConst -> query := fun v u => strictly (LelCV u v g) (LelVC v u g).

Lemma filter_le : forall (A : Type) (p q : A -> bool) l, (forall x, In x l -> p x = true -> q x = true) -> (length (filter p l) <= length (filter q l))%nat.
Proof.
  intros A p q l. induction l as [|x l IH]; intros H; auto. simpl. assert (L : (length (filter p l) <= length (filter q l))%nat) by (apply IH; intros; apply H; simpl; auto).
  destruct (p x) eqn:Px; [rewrite (H x) by (simpl; auto)|destruct (q x)]; simpl; lia.
Qed.
Lemma bots_dim : forall d e, (bots d e <= d)%nat.
Proof.
  intros d e. unfold bots. eapply Nat.le_trans; [apply (filter_le _ _ (fun _ => true)); auto|]. 
  assert (X : forall (A : Type) (l : list A), filter (fun _ => true) l = l) by (intros A l; induction l; simpl; congruence).
  rewrite X. unfold indices_below. rewrite map_length, seq_length. lia.
Qed.
Lemma in_indices : forall d i, In i (indices_below d) <-> in_range d i.
Proof.
  intros d i. unfold indices_below, in_range. rewrite in_map_iff. split.
  - intros (n & <- & H). apply in_seq in H. lia.
  - intros H. exists (Z.to_nat i). split; [lia|]. apply in_seq. lia.
Qed.
Lemma filter_lt : forall (A : Type) (p q : A -> bool) l y, (forall x, In x l -> p x = true -> q x = true) -> In y l -> p y = false -> q y = true ->
  (length (filter p l) < length (filter q l))%nat.
Proof.
  intros A p q l y. induction l as [|x l IH]; intros H Hy P Q; [contradiction|]. simpl.
  assert (L : (length (filter p l) <= length (filter q l))%nat) by (apply filter_le; intros; apply H; simpl; auto).
  destruct Hy as [->|Hy].
  - rewrite P, Q. simpl. lia.
  - assert (X : (length (filter p l) < length (filter q l))%nat) by (apply IH; auto; intros; apply H; simpl; auto).
    destruct (p x) eqn:Px; [rewrite (H x) by (simpl; auto)|destruct (q x)]; simpl; lia.
Qed.
(* Strictly subsumed: more undefined features. *)
Lemma subsumed_bots : forall d e e', valid_inst d e -> valid_inst d e' -> subsumed d e e' -> ~ subsumed d e' e -> (bots d e' < bots d e)%nat.
Proof.
  intros d e e' V V' H N. unfold bots.
  assert (X : exists i, in_range d i /\ feat e i = BOT /\ feat e' i <> BOT).
  { destruct (forallb (fun i => (feat e' i =? BOT) || (feat e' i =? feat e i)) (indices_below d)) eqn:F.
    - elim N. intros i Hi. rewrite forallb_forall in F. specialize (F i (proj2 (in_indices d i) Hi)). apply orb_true_iff in F as [F|F]; apply Z.eqb_eq in F; auto.
    - assert (Y : existsb (fun i => negb ((feat e' i =? BOT) || (feat e' i =? feat e i))) (indices_below d) = true).
      { clear - F. induction (indices_below d) as [|i l IH]; [discriminate|]. simpl in *. destruct ((feat e' i =? BOT) || (feat e' i =? feat e i)); simpl in *; auto. }
      apply existsb_exists in Y as (i & Hi & Y). apply in_indices in Hi. apply negb_true_iff, orb_false_iff in Y as [Y1 Y2]. apply Z.eqb_neq in Y1, Y2.
      exists i. split; auto. split; auto. destruct (H i Hi) as [Z|Z]; auto. congruence. }
  destruct X as (i & Hi & Hb & Hn). apply (filter_lt _ _ _ _ i).
  - intros j Hj Q. apply in_indices in Hj. apply Z.eqb_eq in Q. apply Z.eqb_eq. destruct (H j Hj) as [Z|Z]; congruence.
  - now apply in_indices.
  - now apply Z.eqb_neq.
  - now apply Z.eqb_eq.
Qed.

Lemma satisfies_strictly : forall d t v e a b, satisfies d t v (strictly a b) e -> exists E, valid_env d E /\ E v = e /\ holds d t E (bind_atom [] a) /\ ~ holds d t E (bind_atom [] b).
Proof. intros d t v e a b (E & V & Ev & M1 & M2). exists E. auto. Qed.

Theorem C29_subsumption : forall E m t N fg og v fuel s, og = subs_min \/ og = subs_max -> problem m t N fg og v -> files_ok E -> correct_solver E -> e_opttmp E = true ->
  (Dim m < fuel)%nat ->
  exists out s' c', ComputeOptim fuel E fg og v (BasicQContext m) s = (Ok out, s', c') /\ oCalls out = Z.of_nat (bs_calls s' - bs_calls s) /\ oCalls out <= Z.of_nat (Dim m) + 2 /\
    (oFound out = true <-> exists e, satisfies (Dim m) t v (fg v) e).
Proof.
  intros E m t N fg og v fuel s O P FO CS ET F. pose proof (fun e => satisfies_valid (Dim m) t v (fg v) e) as SV. destruct O as [-> | ->].
  - apply (C29_measure E m t N fg subs_min v fuel s (fun e => Dim m - bots (Dim m) e)%nat (Dim m) P FO CS ET); auto; [intros; lia|].
    intros e e' H H' L. apply satisfies_strictly in L as (E0 & V & <- & L1 & L2). cbn in L1, L2. pose proof (subsumed_bots _ _ _ (V v) (SV e H) L1 L2).
    pose proof (bots_dim (Dim m) (E0 v)). lia.
  - apply (C29_measure E m t N fg subs_max v fuel s (fun e => bots (Dim m) e) (Dim m) P FO CS ET); auto; [intros; apply bots_dim|].
    intros e e' H H' L. apply satisfies_strictly in L as (E0 & V & <- & L1 & L2). cbn in L1, L2. apply (subsumed_bots _ _ _ (SV e H) (V v) L1 L2).
Qed.
Print Assumptions C29_subsumption.
Theorem C29_level : forall E m t N fg og v g fuel s, og = lel_min g \/ og = lel_max g -> problem m t N fg og v -> files_ok E -> correct_solver E -> e_opttmp E = true ->
  (Dim m < fuel)%nat ->
  exists out s' c', ComputeOptim fuel E fg og v (BasicQContext m) s = (Ok out, s', c') /\ oCalls out = Z.of_nat (bs_calls s' - bs_calls s) /\ oCalls out <= Z.of_nat (Dim m) + 2 /\
    (oFound out = true <-> exists e, satisfies (Dim m) t v (fg v) e).
Proof.
  intros E m t N fg og v g fuel s O P FO CS ET F. destruct O as [-> | ->].
  - apply (C29_measure E m t N fg (lel_min g) v fuel s (fun e => Dim m - bots (Dim m) e)%nat (Dim m) P FO CS ET); auto; [intros; lia|].
    intros e e' H H' L. apply satisfies_strictly in L as (E0 & V & <- & L1 & L2). cbn in L1, L2. unfold level_le in *.
    pose proof (bots_dim (Dim m) (E0 v)). lia.
  - apply (C29_measure E m t N fg (lel_max g) v fuel s (fun e => bots (Dim m) e) (Dim m) P FO CS ET); auto; [intros; apply bots_dim|].
    intros e e' H H' L. apply satisfies_strictly in L as (E0 & V & <- & L1 & L2). cbn in L1, L2. unfold level_le in *. lia.
Qed.
Print Assumptions C29_level.
