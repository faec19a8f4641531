(* Properties C42, C43: the programs of /repo/examples. *)
From Verif Require Import GoBase GoLemmas Cnf Query Walk Atoms Logop Spec Meaning Truth CnfSem QueryLemmas Sym AtomBase TreeLemmas WalkLemmas AtomMain Form Master Block Ground Sat AtomCnf Evolve Outcome Errors Names FirstOrder Answer Solver Dimacs Compute Run PropContext PropTruth PropCompute Optim PropOptim PropSize.
Local Open Scope string_scope.
Local Open Scope Z_scope.
Local Open Scope list_scope.

(* ---- the programs' generators ---- *)

(* examples/computation.go:68-70 *)
Definition reachableVarGen (v : string) : string := append "r" v.
(* examples/evaluation.go:66-68 *)
Definition botCountVarGen (v : string) : string := append "cbot" v.

(* The other purposes are given names that do not occur. *)
Definition ex_naming : naming :=
  mkNaming no_rs botCountVarGen (fun v => sjoin rs ["n"; v]) reachableVarGen
    (fun a b => sjoin rs ["d"; a; b]) (fun a b => sjoin rs ["e"; a; b]) (fun p a b => sjoin rs ["p"; p; a; b]).

Lemma ex_apart : apart_names ex_naming.
Proof.
  intros u v Hu Hv E. left. destruct u, v; cbn [use_name use_ok ex_naming n_arg n_count n_node n_comp n_dist n_eq n_pref] in *; unfold botCountVarGen, reachableVarGen, no_rs in *;
    try discriminate.
  - cbn [append] in E. injection E as ->. reflexivity.
  - apply sjoin_inj in E; try discriminate; [injection E as ->; reflexivity|simpl; now rewrite Hu|simpl; now rewrite Hv].
  - cbn [append] in E. injection E as ->. reflexivity.
  - destruct Hu as [A1 A2], Hv as [B1 B2]. apply sjoin_inj in E; try discriminate; [injection E as -> ->; reflexivity|simpl; now rewrite A1, A2|simpl; now rewrite B1, B2].
  - destruct Hu as [A1 A2], Hv as [B1 B2]. apply sjoin_inj in E; try discriminate; [injection E as -> ->; reflexivity|simpl; now rewrite A1, A2|simpl; now rewrite B1, B2].
  - destruct Hu as (A1 & A2 & A3), Hv as (B1 & B2 & B3). apply sjoin_inj in E; try discriminate; [injection E as -> -> ->; reflexivity|simpl; now rewrite A1, A2, A3|simpl; now rewrite B1, B2, B3].
Qed.

Lemma ex_tidy : forall d q, (0 < d)%nat -> Forall (obeys ex_naming) (atoms_of q) -> flat_map prefs_in (atoms_of q) = [] ->
  Forall (fun v => v = "x" \/ v = "y") (all_vars q) -> all_ids q = [] -> tidy ex_naming d q.
Proof.
  intros d q Hd HO HP HV HI. constructor; auto.
  - apply ex_apart.
  - rewrite HP. intros p p' [].
  - intros [i e] [_ H]. now apply AsString_no_rs.
  - intros v w (Hv & p & Hp & ->). rewrite HI in Hp. assert (p = []) as -> by (destruct p as [|k p]; auto; inversion Hp as [|? ? X _]; destruct X).
    rewrite Forall_forall in HV. change (pname v []) with v.
    assert (X : exists a, v = String a "" /\ (a = "x"%char \/ a = "y"%char)) by (destruct (HV v Hv) as [->| ->]; eexists; split; [reflexivity|auto|reflexivity|auto]).
    destruct X as (a & -> & Ha). split; [destruct Ha as [->| ->]; reflexivity|]. split.
    + intros u _ E. destruct u; cbn in E; destruct Ha as [->| ->]; discriminate.
    + intros [i l] [L F] E. cbn [cVal] in *. destruct l as [|x l]; [simpl in L; lia|]. rewrite (AsString_cons _ x l) in E by reflexivity.
      inversion F as [|? ? Hx _]; subst. destruct Hx as [->|[->| ->]]; destruct Ha as [->| ->]; discriminate.
Qed.

(* ---- C42 ---- *)

(* examples/computation.go:102-131 *)
Definition sufficientReason (c : QConst) (v : QVar) : query :=
  QWith v
    (QAnd (QAtom (SubsVC v c))
       (QAnd (QOr (QNot (QAtom (AllC c true))) (QAtom (AllV v true (Some reachableVarGen))))
             (QOr (QNot (QAtom (AllC c false))) (QAtom (AllV v false (Some reachableVarGen)))))).
(* examples/computation.go:133-138 *)
Definition strictSubsumption (v : QVar) (u : QConst) : query :=
  QAnd (QAtom (SubsVC v u)) (QNot (QAtom (SubsCV u v))).

(* Part of c, all of whose completions are classified like c; nothing smaller is. *)
Definition sufficient (d : nat) (t : tree) (c e : inst) : Prop :=
  valid_inst d e /\ subsumed d e c /\ forall x, completion d e x -> classify t x = classify t c.
Definition minimal_reason (d : nat) (t : tree) (c e : inst) : Prop :=
  sufficient d t c e /\ forall e', sufficient d t c e' -> subsumed d e' e -> e' = e.

Lemma subsumed_antisym : forall d e e', valid_inst d e -> valid_inst d e' -> subsumed d e e' -> subsumed d e' e -> e = e'.
Proof.
  intros d e e' [L _] [L' _] A B. apply (nth_ext _ _ BOT BOT); [congruence|]. intros n Hn.
  assert (R : in_range d (Z.of_nat n)) by (split; lia). specialize (A _ R). specialize (B _ R). unfold feat in *. rewrite Nat2Z.id in *. destruct A, B; congruence.
Qed.
Lemma full_completion : forall d c x, valid_inst d c -> full d c -> (completion d c x <-> x = c).
Proof.
  intros d c x V F. split.
  - intros (Vx & Fx & S). symmetry. apply (subsumed_antisym d); auto. intros i Hi. destruct (S i Hi) as [X|X]; [elim (F i Hi X)|right; auto].
  - intros ->. split; auto. split; auto. intros i _. auto.
Qed.

Lemma subsumed_dec : forall d e e', subsumed d e e' \/ ~ subsumed d e e'.
Proof.
  intros d e e'. destruct (forallb (fun i => (feat e i =? BOT) || (feat e i =? feat e' i)) (indices_below d)) eqn:F.
  - left. intros i Hi. rewrite forallb_forall in F. specialize (F i (proj2 (in_indices d i) Hi)). apply orb_true_iff in F as [F|F]; apply Z.eqb_eq in F; auto.
  - right. intros H. apply not_true_iff_false in F. apply F, forallb_forall. intros i Hi. apply in_indices in Hi. apply orb_true_iff. rewrite !Z.eqb_eq. auto.
Qed.

Section Reasons.
Variables (m : model) (t : tree) (c : inst).
Hypothesis DT : is_dtree m t.
Hypothesis VC : valid_inst (Dim m) c.
Hypothesis FC : full (Dim m) c.
Let k := mkQConst "" c.

Lemma reason_satisfies : forall e, satisfies (Dim m) t "x" (sufficientReason k "x") e <-> sufficient (Dim m) t c e.
Proof.
  intros e. split.
  - intros (E & V & <- & H1 & H2 & H3). cbn in H1, H2, H3. split; [apply V|]. split; [exact H1|]. intros x Hx.
    destruct (classify t c) eqn:B.
    + destruct H2 as [H2|H2]; [|apply (H2 x Hx)]. elim H2. intros y Hy. apply full_completion in Hy; auto. now subst y.
    + destruct H3 as [H3|H3]; [|apply (H3 x Hx)]. elim H3. intros y Hy. apply full_completion in Hy; auto. now subst y.
  - intros (V & S & H). exists (fun _ => e). split; [intros v; exact V|]. split; [reflexivity|]. cbn. split; [exact S|].
    destruct (classify t c) eqn:B.
    + split; [right; exact H|]. left. intros X. specialize (X c). rewrite B in X. discriminate X. now apply full_completion.
    + split; [|right; exact H]. left. intros X. specialize (X c). rewrite B in X. discriminate X. now apply full_completion.
Qed.
Lemma order_satisfies : forall e e', valid_inst (Dim m) e' -> satisfies (Dim m) t "x" (strictSubsumption "x" (mkQConst "" e)) e' <-> subsumed (Dim m) e' e /\ ~ subsumed (Dim m) e e'.
Proof.
  intros e e' V. split.
  - intros (E & _ & <- & H1 & H2). cbn in H1, H2. auto.
  - intros [H1 H2]. exists (fun _ => e'). split; [intros v; exact V|]. split; [reflexivity|]. split; [exact H1|exact H2].
Qed.

Hypothesis SZ : Z.of_nat (18 * unit_size (Dim m) (length (Nodes m))) < 2 ^ 63.

Lemma reason_problem : problem m t ex_naming (sufficientReason k) strictSubsumption "x".
Proof.
  pose proof (proj1 DT) as Hd.
  assert (AC : forall b, atom_ok (Dim m) (bind_atom [] (AllC k b)) /\ model_ok m t (AllC k b)).
  { intros b. split; [|exact DT]. split; [apply Forall_cons; [exact VC|apply Forall_nil]|]. split; [exact Logic.I|]. split; exact Logic.I. }
  assert (AV : forall b, atom_ok (Dim m) (bind_atom [] (AllV "x" b (Some reachableVarGen))) /\ model_ok m t (AllV "x" b (Some reachableVarGen))).
  { intros b. split; [|exact DT]. split; [constructor|]. split; [cbn; discriminate|]. split; exact Logic.I. }
  assert (SV : forall i, valid_inst (Dim m) (cVal i) -> cID i = "" -> (atom_ok (Dim m) (bind_atom [] (SubsVC "x" i)) /\ model_ok m t (SubsVC "x" i)) /\ (atom_ok (Dim m) (bind_atom [] (SubsCV i "x")) /\ model_ok m t (SubsCV i "x"))).
  { intros [i e] V Z. split; (split; [|exact Logic.I]; split; [apply Forall_cons; [exact V|apply Forall_nil]|]; split; [exact Logic.I|]; split; exact Logic.I). }
  assert (IX : incl ["x"] ["x"; "x"]) by (intros v [<-|[]]; simpl; auto). assert (IX1 : incl ["x"] ["x"]) by apply incl_refl.
  assert (IN : incl [] ["x"; "x"]) by (intros v []).
  constructor; auto.
  - split; [|split].
    + constructor; cbn; repeat split; auto; try tauto; try apply AC; try apply AV; try apply (SV k VC eq_refl); repeat constructor.
    + apply ex_tidy; auto; [repeat constructor|repeat constructor; auto].
    + apply C44_fits. cbn [qlen qdepth sufficientReason Nat.pow Nat.max]. rewrite Nat.mul_1_r. lia.
  - intros e V. cbv zeta. split; [|split].
    + constructor; cbn; repeat split; auto; try tauto; try apply AC; try apply AV; try apply (SV k VC eq_refl); try apply (SV (mkQConst "" e) V eq_refl); repeat constructor.
    + apply ex_tidy; auto; [repeat constructor|repeat constructor; auto].
    + apply C44_fits. cbn [qlen qdepth sufficientReason strictSubsumption Nat.pow Nat.max Nat.add]. rewrite Nat.mul_1_r. lia.
  - intros e w _ _ [].
Qed.
End Reasons.

(* Whatever the decision tree, the full instance and the solver: a minimal
   sufficient reason, found with at most dim + 2 calls. *)
Theorem C42_minimal_reason : forall E m t c fuel s, is_dtree m t -> valid_inst (Dim m) c -> full (Dim m) c ->
  Z.of_nat (18 * unit_size (Dim m) (length (Nodes m))) < 2 ^ 63 ->
  files_ok E -> correct_solver E -> e_opttmp E = true -> (Dim m < fuel)%nat ->
  exists e n s' c', ComputeOptim fuel E (sufficientReason (mkQConst "" c)) strictSubsumption "x" (BasicQContext m) s = (Ok (mkOpt true (mkQConst "" e) n), s', c') /\
    minimal_reason (Dim m) t c e /\ n = Z.of_nat (bs_calls s' - bs_calls s) /\ n <= Z.of_nat (Dim m) + 2.
Proof.
  intros E m t c fuel s DT VC FC SZ FO CS ET HF. pose proof (reason_problem m t c DT VC SZ) as P.
  destruct (C29_subsumption E m t ex_naming (sufficientReason (mkQConst "" c)) strictSubsumption "x" fuel s (or_introl eq_refl) P FO CS ET HF) as (out & s' & c' & R & N & B & F).
  destruct (C28_whatever_order E m t ex_naming (sufficientReason (mkQConst "" c)) strictSubsumption "x" fuel s P FO CS ET) as (r & s2 & c2 & R2 & X).
  rewrite R in R2. injection R2 as <- <- <-.
  assert (S0 : exists e, satisfies (Dim m) t "x" (sufficientReason (mkQConst "" c) "x") e).
  { exists c. apply reason_satisfies; auto. split; auto. split; [intros i _; auto|]. intros x Hx. apply full_completion in Hx; auto. now subst x. }
  destruct X as [(X & _)|[(_ & X)|(e & X & O & M)]]; [discriminate|destruct S0 as (e & He); elim (X e He)|]. injection X as ->. cbn [oCalls] in *.
  exists e. do 3 eexists. split; [exact R|]. split; [|auto]. apply reason_satisfies in O; auto. split; auto. intros e' H' L.
  destruct (subsumed_dec (Dim m) e e') as [G|G]; [apply (subsumed_antisym (Dim m)); auto; [apply H'|apply O]|].
  elim (M e'); [now apply reason_satisfies|]. apply order_satisfies; [apply H'|auto].
Qed.
Print Assumptions C42_minimal_reason.

(* The program's tree and instance: the reason is (0, _, _). *)
(* examples/computation.go:74-89, 92-95 *)
Definition opt_tree : model := mkModel 3
  [mkNode false 0 1 6; mkNode false 1 2 5; mkNode false 2 3 4; mkNode true 0 (-1) (-1); mkNode true 0 (-1) (-1); mkNode true 0 (-1) (-1);
   mkNode false 2 7 8; mkNode false 0 (-1) (-1); mkNode false 1 9 10; mkNode true 0 (-1) (-1); mkNode false 0 (-1) (-1)].
Definition opt_shape : tree :=
  Split 0 0 (Split 1 1 (Split 2 2 (Leaf 3 true) (Leaf 4 true)) (Leaf 5 true)) (Split 6 2 (Leaf 7 false) (Split 8 1 (Leaf 9 true) (Leaf 10 false))).
Ltac laid := repeat match goal with
  | |- laid_out _ (Leaf _ _) => split; [lia|]; eexists; split; [reflexivity|]; split; reflexivity
  | |- laid_out _ (Split _ _ _ _) => split; [lia|]; split; [eexists; split; [reflexivity|]; repeat split|]; split
  end.
Ltac readonce := repeat match goal with
  | |- read_once _ _ (Leaf _ _) => exact Logic.I
  | |- read_once _ _ (Split _ _ _ _) => split; [split; simpl; lia|]; split; [simpl; intuition discriminate|]; split
  end.
Lemma opt_is_dtree : is_dtree opt_tree opt_shape.
Proof.
  split; [simpl; lia|]. split; [reflexivity|]. split; [unfold opt_shape; laid|]. split; [repeat constructor; simpl; intuition discriminate|].
  split; [reflexivity|]. unfold opt_shape. readonce.
Qed.
Definition opt_case : inst := [ZERO; ONE; ONE].
Example C42_case : exists s' c',
  ComputeOptim 4 ideal (sufficientReason (mkQConst "" opt_case)) strictSubsumption "x" (BasicQContext opt_tree) fresh_solver =
    (Ok (mkOpt true (mkQConst "" [ZERO; BOT; BOT]) 4), s', c') /\ minimal_reason 3 opt_shape opt_case [ZERO; BOT; BOT].
Proof.
  assert (F : full 3 opt_case).
  { intros i [H1 H2]. assert (i = 0 \/ i = 1 \/ i = 2) as [->|[->| ->]] by (simpl in H2; lia); discriminate. }
  destruct (C42_minimal_reason ideal opt_tree opt_shape opt_case 4 fresh_solver) as (e & n & s' & c' & R & M & _);
    [exact opt_is_dtree|split; [reflexivity|repeat (apply Forall_cons; [unfold valid_feat; auto|]); apply Forall_nil]|exact F|vm_compute; reflexivity|exact ideal_files|exact ideal_correct|reflexivity|simpl; lia|].
  assert (X : fst (fst (ComputeOptim 4 ideal (sufficientReason (mkQConst "" opt_case)) strictSubsumption "x" (BasicQContext opt_tree) fresh_solver)) = Ok (mkOpt true (mkQConst "" [ZERO; BOT; BOT]) 4)) by (vm_compute; reflexivity).
  rewrite R in X. cbn [fst] in X. injection X as -> ->. exists s', c'. auto.
Qed.

(* ---- C43 ---- *)

(* examples/evaluation.go:108-133; the program asks for the negation *)
Definition smaller_or_not (c : QConst) : query :=
  QOr (QNot (QAtom (DfsC c)))
    (QWith "y" (QAnd (QAtom (DfsV "y"))
       (QAnd (QAtom (LelVC "y" c (Some botCountVarGen))) (QNot (QAtom (LelCV c "y" (Some botCountVarGen))))))).

Definition defined (d : nat) (e : inst) : nat := length (filter (fun i => negb (feat e i =? BOT)) (indices_below d)).
Lemma defined_bots : forall d e, (defined d e + bots d e = d)%nat.
Proof.
  intros d e. unfold defined, bots. transitivity (length (indices_below d)).
  - induction (indices_below d) as [|i l IH]; auto. simpl. destruct (feat e i =? BOT); simpl; lia.
  - unfold indices_below. now rewrite map_length, seq_length.
Qed.
(* The defined features of c are a determinant feature set and no determinant
   feature set is smaller. *)
Definition minimum_dfs (d : nat) (t : tree) (c : inst) : Prop :=
  determinant d t c /\ forall e, valid_inst d e -> determinant d t e -> (defined d c <= defined d e)%nat.

Lemma determinant_dec : forall d t e, read_once d [] t -> valid_inst d e -> determinant d t e \/ ~ determinant d t e.
Proof.
  intros d t e R V.
  assert (SD : forall p n, {separated d e p n} + {~ separated d e p n}).
  { intros p n. set (f := fun i => negb (feat e i =? BOT) && negb (feat p i =? BOT) && negb (feat n i =? BOT) && negb (feat p i =? feat n i)).
    destruct (existsb f (indices_below d)) eqn:X; [left|right].
    - apply existsb_exists in X as (i & Hi & Q). unfold f in Q. rewrite !andb_true_iff, !negb_true_iff, !Z.eqb_neq in Q.
      exists i. split; [now apply in_indices|tauto].
    - intros (i & Hi & Q). apply not_true_iff_false in X. apply X, existsb_exists. exists i. split; [now apply in_indices|]. unfold f. rewrite !andb_true_iff, !negb_true_iff, !Z.eqb_neq. tauto. }
  set (L := leaf_insts (all_bot d) t).
  destruct (forallb (fun p => negb (snd p) || forallb (fun n => snd n || if SD (fst p) (fst n) then true else false) L) L) eqn:X.
  - left. apply determinant_iff; auto. intros p n Hp Hn. rewrite forallb_forall in X. specialize (X _ Hp). simpl in X. rewrite forallb_forall in X. specialize (X _ Hn). simpl in X. destruct (SD p n); [auto|discriminate].
  - right. intros D. rewrite (determinant_iff _ _ _ R V) in D. apply not_true_iff_false in X. apply X, forallb_forall. intros [p b] Hp. destruct b; [|reflexivity]. apply forallb_forall. intros [n b] Hn. destruct b; [reflexivity|]. simpl. destruct (SD p n) as [|N]; [auto|]. elim N. now apply D.
Qed.

Theorem C43_minimum_dfs : forall E m t c s, is_dtree m t -> valid_inst (Dim m) c ->
  Z.of_nat (10 * unit_size (Dim m) (length (Nodes m))) < 2 ^ 63 -> files_ok E -> correct_solver E ->
  exists b s' c', CombSat E (CAtom (smaller_or_not (mkQConst "" c)) true) s (BasicQContext m) = (Ok b, s', c') /\
    (b = true <-> minimum_dfs (Dim m) t c) /\ (b = false <-> ~ minimum_dfs (Dim m) t c).
Proof.
  intros E m t c s DT VC SZ FO CS. pose proof (proj1 DT) as Hd. set (k := mkQConst "" c).
  assert (F : fo_query m t (smaller_or_not k)).
  { constructor.
    - cbn. split; [intros v []|]. repeat split; apply incl_refl.
    - repeat constructor; simpl; tauto.
    - cbn. tauto.
    - assert (FK : forall (P : Prop), P -> Forall (fun k => valid_inst (Dim m) (cVal k)) [bind_const [] k] /\ P) by (intros P HP; split; [apply Forall_cons; [exact VC|apply Forall_nil]|exact HP]).
      cbn [smaller_or_not components_ok]. split; [|split; [|split]].
      + split; [apply FK; split; [exact Logic.I|]; split; exact Logic.I|exact DT].
      + split; [split; [apply Forall_nil|]; split; [exact Logic.I|]; split; exact Logic.I|exact DT].
      + split; [apply FK; split; [cbn; discriminate|]; split; exact Logic.I|exact Hd].
      + split; [apply FK; split; [cbn; discriminate|]; split; exact Logic.I|exact Hd].
    - split; cbn; repeat constructor. }
  assert (T : tidy ex_naming (Dim m) (smaller_or_not k)).
  { apply ex_tidy; auto; [repeat constructor|apply Forall_cons; [auto|apply Forall_nil]]. }
  assert (FT : fits m (smaller_or_not k)).
  { apply C44_fits. cbn [qlen qdepth smaller_or_not Nat.pow Nat.max Nat.add]. rewrite Nat.mul_1_r. lia. }
  destruct (C26_first_order E m t (smaller_or_not k) ex_naming true s (fun _ => c) Hd (fun _ => DT) F T (fun _ => VC) FT FO CS) as (b & s' & c' & R & X).
  exists b, s', c'. split; [exact R|].
  assert (M : (~ trueFO (Dim m) t (fun _ => c) [] (smaller_or_not k)) <-> minimum_dfs (Dim m) t c).
  { assert (LE : forall e, (level_le (Dim m) e c /\ ~ level_le (Dim m) c e) <-> (defined (Dim m) e < defined (Dim m) c)%nat).
    { intros e. unfold level_le. pose proof (defined_bots (Dim m) e). pose proof (defined_bots (Dim m) c). lia. }
    cbn. unfold k. cbn. split.
    - intros H. split.
      + destruct (determinant_dec (Dim m) t c (proj2 (proj2 (proj2 (proj2 (proj2 DT))))) VC) as [D|D]; auto. elim H. now left.
      + intros e V D. destruct (Nat.le_gt_cases (defined (Dim m) c) (defined (Dim m) e)) as [|G]; auto. elim H. right. exists e. split; auto. split; [exact D|]. now apply LE.
    - intros [D H] [N|(e & V & De & L)]; [auto|]. apply LE in L. specialize (H e V De). lia. }
  assert (Y : b = true <-> minimum_dfs (Dim m) t c) by (rewrite X; exact M). split; [exact Y|]. rewrite <- Y. destruct b; split; intros Q; auto; try discriminate; now elim Q.
Qed.
Print Assumptions C43_minimum_dfs.

(* examples/evaluation.go:72-92 *)
Definition eval_tree : model := mkModel 3
  [mkNode false 0 1 8; mkNode false 1 2 5; mkNode false 2 3 4; mkNode false 0 (-1) (-1); mkNode false 0 (-1) (-1); mkNode false 2 6 7;
   mkNode true 0 (-1) (-1); mkNode true 0 (-1) (-1); mkNode false 2 9 12; mkNode false 1 10 11; mkNode false 0 (-1) (-1); mkNode true 0 (-1) (-1);
   mkNode false 1 13 14; mkNode false 0 (-1) (-1); mkNode true 0 (-1) (-1)].
Definition eval_shape : tree :=
  Split 0 0 (Split 1 1 (Split 2 2 (Leaf 3 false) (Leaf 4 false)) (Split 5 2 (Leaf 6 true) (Leaf 7 true)))
            (Split 8 2 (Split 9 1 (Leaf 10 false) (Leaf 11 true)) (Split 12 1 (Leaf 13 false) (Leaf 14 true))).
Lemma eval_is_dtree : is_dtree eval_tree eval_shape.
Proof.
  split; [simpl; lia|]. split; [reflexivity|]. split; [unfold eval_shape; laid|]. split; [repeat constructor; simpl; intuition discriminate|].
  split; [reflexivity|]. unfold eval_shape. readonce.
Qed.
Definition eval_case : inst := [BOT; ZERO; BOT].
Lemma small_valid : forall e, forallb (fun f => (f =? BOT) || (f =? ZERO) || (f =? ONE)) e = true -> valid_inst (length e) e.
Proof.
  intros e H. split; auto. rewrite forallb_forall in H. apply Forall_forall. intros f Hf. specialize (H f Hf). rewrite !orb_true_iff, !Z.eqb_eq in H. unfold valid_feat. tauto.
Qed.
(* The program's own instance: it is one. With two features it is not. *)
Example C43_case :
  (exists s' c', CombSat ideal (CAtom (smaller_or_not (mkQConst "" eval_case)) true) fresh_solver (BasicQContext eval_tree) = (Ok true, s', c')) /\
  minimum_dfs 3 eval_shape eval_case /\ ~ minimum_dfs 3 eval_shape [ZERO; ZERO; BOT].
Proof.
  assert (G : forall e, length e = 3%nat -> forallb (fun f => (f =? BOT) || (f =? ZERO) || (f =? ONE)) e = true -> exists b s' c',
    CombSat ideal (CAtom (smaller_or_not (mkQConst "" e)) true) fresh_solver (BasicQContext eval_tree) = (Ok b, s', c') /\ (b = true <-> minimum_dfs 3 eval_shape e) /\ (b = false <-> ~ minimum_dfs 3 eval_shape e)).
  { intros e L V. apply small_valid in V. rewrite L in V. apply (C43_minimum_dfs ideal eval_tree eval_shape e fresh_solver eval_is_dtree V); [vm_compute; reflexivity|exact ideal_files|exact ideal_correct]. }
  destruct (G eval_case eq_refl eq_refl) as (b & s' & c' & R & Q & _).
  assert (X : fst (fst (CombSat ideal (CAtom (smaller_or_not (mkQConst "" eval_case)) true) fresh_solver (BasicQContext eval_tree))) = Ok true) by (vm_compute; reflexivity).
  rewrite R in X. injection X as ->. split; [now exists s', c'|]. split; [now apply Q|]. clear R Q s' c'.
  destruct (G [ZERO; ZERO; BOT] eq_refl eq_refl) as (b & s' & c' & R & _ & Q).
  assert (X : fst (fst (CombSat ideal (CAtom (smaller_or_not (mkQConst "" [ZERO; ZERO; BOT])) true) fresh_solver (BasicQContext eval_tree))) = Ok false) by (vm_compute; reflexivity).
  rewrite R in X. injection X as ->. now apply Q.
Qed.

(* The program's comment (examples/evaluation.go:25-28) says what a DFS is in
   other words: a partial instance all of whose completions have the same
   class. The program does not decide that. *)
Definition same_class (d : nat) (t : tree) (c : inst) : Prop := exists b, all_comp d t b c.
Definition minimum_as_commented (d : nat) (t : tree) (c : inst) : Prop :=
  same_class d t c /\ forall e, valid_inst d e -> same_class d t e -> (defined d c <= defined d e)%nat.

Definition odd_tree : model := mkModel 2 [mkNode false 0 1 2; mkNode false 0 (-1) (-1); mkNode false 1 3 4; mkNode false 0 (-1) (-1); mkNode true 0 (-1) (-1)].
Definition odd_shape : tree := Split 0 0 (Leaf 1 false) (Split 2 1 (Leaf 3 false) (Leaf 4 true)).
Lemma odd_is_dtree : is_dtree odd_tree odd_shape.
Proof.
  split; [simpl; lia|]. split; [reflexivity|]. split; [unfold odd_shape; laid|]. split; [repeat constructor; simpl; intuition discriminate|].
  split; [reflexivity|]. unfold odd_shape. readonce.
Qed.
Theorem C43_as_commented_refuted : exists m t c s' c', is_dtree m t /\ valid_inst (Dim m) c /\
  CombSat ideal (CAtom (smaller_or_not (mkQConst "" c)) true) fresh_solver (BasicQContext m) = (Ok false, s', c') /\
  minimum_as_commented (Dim m) t c.
Proof.
  exists odd_tree, odd_shape, [ZERO; BOT].
  destruct (CombSat ideal (CAtom (smaller_or_not (mkQConst "" [ZERO; BOT])) true) fresh_solver (BasicQContext odd_tree)) as [[r s'] c'] eqn:R.
  assert (X : fst (fst (CombSat ideal (CAtom (smaller_or_not (mkQConst "" [ZERO; BOT])) true) fresh_solver (BasicQContext odd_tree))) = Ok false) by (vm_compute; reflexivity).
  rewrite R in X. cbn [fst] in X. subst r. exists s', c'. split; [exact odd_is_dtree|].
  split; [exact (small_valid [ZERO; BOT] eq_refl)|]. split; [reflexivity|]. split.
  - exists false. intros x (V & F & S). assert (R0 : in_range 2 0) by (unfold in_range; lia).
    destruct (S 0 R0) as [Q|Q]; [discriminate|]. unfold odd_shape. simpl. rewrite <- Q. reflexivity.
  - intros e V (b & H). change (defined (Dim odd_tree) [ZERO; BOT]) with 1%nat. destruct (defined (Dim odd_tree) e) eqn:D; [|lia]. exfalso.
    pose proof (defined_bots 2 e) as DB. change (defined (Dim odd_tree) e) with (defined 2 e) in D.
    destruct V as [L VF]. destruct e as [|x [|y [|? ?]]]; try discriminate L.
    unfold defined in D. cbn [indices_below seq map filter Nat.add] in D. change (feat [x; y] (Z.of_nat 0)) with x in D. change (feat [x; y] (Z.of_nat 1)) with y in D.
    destruct (x =? BOT) eqn:X1; [|discriminate D]. simpl negb in D. cbv iota in D. destruct (y =? BOT) eqn:X2; [|discriminate D].
    apply Z.eqb_eq in X1, X2. subst x y.
    assert (G : forall x y, (x = ZERO \/ x = ONE) -> (y = ZERO \/ y = ONE) -> completion 2 [BOT; BOT] [x; y]).
    { intros x y Hx Hy. split; [split; [reflexivity|]|split].
      - apply Forall_cons; [|apply Forall_cons; [|apply Forall_nil]]; unfold valid_feat; tauto.
      - intros i [A B]. assert (i = 0 \/ i = 1) as [->| ->] by (simpl in B; lia); cbn; [destruct Hx|destruct Hy]; subst; discriminate.
      - intros i [A B]. left. assert (i = 0 \/ i = 1) as [->| ->] by (simpl in B; lia); reflexivity. }
    pose proof (H _ (G ZERO ZERO (or_introl eq_refl) (or_introl eq_refl))) as H0. pose proof (H _ (G ONE ONE (or_intror eq_refl) (or_intror eq_refl))) as H1.
    vm_compute in H0, H1. congruence.
Qed.
Print Assumptions C43_as_commented_refuted.

(* ---- cases for C28, C29 and C45 ---- *)

Lemma opt_valid : valid_inst (Dim opt_tree) opt_case.
Proof. exact (small_valid opt_case eq_refl). Qed.
Lemma opt_full : full (Dim opt_tree) opt_case.
Proof. intros i [H1 H2]. assert (i = 0 \/ i = 1 \/ i = 2) as [->|[->| ->]] by (simpl in H2; lia); discriminate. Qed.
Lemma opt_problem : problem opt_tree opt_shape ex_naming (sufficientReason (mkQConst "" opt_case)) strictSubsumption "x".
Proof. apply reason_problem; [exact opt_is_dtree|exact opt_valid|vm_compute; reflexivity]. Qed.
Lemma opt_reason : sufficient 3 opt_shape opt_case opt_case.
Proof. split; [exact opt_valid|]. split; [intros i _; auto|]. intros x Hx. apply (full_completion 3 opt_case x opt_valid opt_full) in Hx. now subst x. Qed.

Example C28_case : exists e n s' c',
  ComputeOptim 27 ideal (sufficientReason (mkQConst "" opt_case)) strictSubsumption "x" (BasicQContext opt_tree) fresh_solver = (Ok (mkOpt true (mkQConst "" e) n), s', c') /\
  sufficient 3 opt_shape opt_case e /\ 2 <= n.
Proof.
  destruct (C28_optimal ideal opt_tree opt_shape ex_naming (sufficientReason (mkQConst "" opt_case)) strictSubsumption "x" 27 fresh_solver opt_problem ideal_files ideal_correct eq_refl)
    as (e & n & s' & c' & R & O & _ & _ & [N _]).
  - exists opt_case. apply (reason_satisfies opt_tree opt_shape opt_case opt_valid opt_full), opt_reason.
  - intros e He. rewrite order_satisfies by apply (satisfies_valid _ _ _ _ _ He). tauto.
  - intros e1 e2 e3 H1 H2 H3. pose proof (satisfies_valid _ _ _ _ _ H1). pose proof (satisfies_valid _ _ _ _ _ H2).
    rewrite !order_satisfies by auto. intros [A1 A2] [B1 B2]. split.
    + intros i Hi. destruct (A1 i Hi) as [Q|Q]; [auto|]. rewrite Q. apply B1; auto.
    + intros Q. apply B2. intros i Hi. destruct (Q i Hi) as [Y|Y]; [auto|]. rewrite Y. auto.
  - simpl. lia.
  - exists e, n, s', c'. split; [exact R|]. split; [|exact N]. apply (reason_satisfies opt_tree opt_shape opt_case opt_valid opt_full), O.
Qed.
Example C29_case : exists out s' c',
  ComputeOptim 4 ideal (sufficientReason (mkQConst "" opt_case)) strictSubsumption "x" (BasicQContext opt_tree) fresh_solver = (Ok out, s', c') /\ oFound out = true /\ oCalls out <= 5.
Proof.
  destruct (C29_subsumption ideal opt_tree opt_shape ex_naming (sufficientReason (mkQConst "" opt_case)) strictSubsumption "x" 4 fresh_solver (or_introl eq_refl) opt_problem ideal_files ideal_correct eq_refl)
    as (out & s' & c' & R & _ & C & F); [simpl; lia|].
  exists out, s', c'. split; [exact R|]. split; [|exact C]. apply F. exists opt_case. apply (reason_satisfies opt_tree opt_shape opt_case opt_valid opt_full), opt_reason.
Qed.

(* a formula without instances *)
Definition no_instance (c : QConst) (v : QVar) : query := QWith v (QAnd (QAtom (SubsVC v c)) (QNot (QAtom (SubsVC v c)))).
(* the order a user gets who forgets the second conjunct *)
Definition weakSubsumption (v : QVar) (u : QConst) : query := QAtom (SubsVC v u).

Ltac subs_ok V := split; [|exact Logic.I]; split; [apply Forall_cons; [exact V|apply Forall_nil]|]; split; [exact Logic.I|]; split; exact Logic.I.
Lemma none_problem : problem opt_tree opt_shape ex_naming (no_instance (mkQConst "" opt_case)) strictSubsumption "x".
Proof.
  pose proof opt_valid as V0. revert V0. generalize opt_case. intros c V0. assert (IX : incl ["x"] ["x"; "x"]) by (intros v [<-|[]]; simpl; auto). assert (IX1 : incl ["x"] ["x"]) by apply incl_refl.
  assert (IN : incl [] ["x"; "x"]) by (intros v []). pose proof opt_is_dtree as DT. constructor; [simpl; lia|exact DT| | |].
  - split; [|split].
    + constructor; [cbn; tauto|cbn; tauto|cbn; tauto|split; subs_ok V0|split; repeat constructor].
    + apply ex_tidy; auto; [simpl; lia|repeat constructor|repeat constructor; auto].
    + apply C44_fits. vm_compute. reflexivity.
  - intros e V. cbv zeta. split; [|split].
    + constructor; [cbn; tauto|cbn; tauto|cbn; tauto|split; [split; subs_ok V0|split; subs_ok V]|split; repeat constructor].
    + apply ex_tidy; auto; [simpl; lia|repeat constructor|repeat constructor; auto].
    + apply C44_fits. vm_compute. reflexivity.
  - intros e w _ _ [].
Qed.
Example C28_none_case : exists s' c', ComputeOptim 27 ideal (no_instance (mkQConst "" opt_case)) strictSubsumption "x" (BasicQContext opt_tree) fresh_solver
  = (Ok (mkOpt false (mkQConst "" []) 1), s', c').
Proof.
  destruct (C28_none ideal opt_tree opt_shape ex_naming (no_instance (mkQConst "" opt_case)) strictSubsumption "x" 27 fresh_solver none_problem ideal_files ideal_correct eq_refl) as (s' & c' & R & _).
  - intros e (E & _ & _ & A & B). cbn in A, B. contradiction.
  - now exists s', c'.
Qed.
Lemma weak_problem : problem opt_tree opt_shape ex_naming (sufficientReason (mkQConst "" opt_case)) weakSubsumption "x".
Proof.
  destruct opt_problem as [P1 P2 P3 P4 P5]. constructor; auto.
  - intros e V. cbv zeta. destruct (P4 e V) as (W & _ & _). split; [|split].
    + destruct W as [W1 W2 W3 [W4 _] W5]. constructor; cbn in W1, W2, W3, W4, W5 |- *; try tauto. split; [exact W4|subs_ok V].
    + apply ex_tidy; auto; [repeat constructor|repeat constructor; auto].
    + apply C44_fits. vm_compute. reflexivity.
Qed.
Example C45_case : forall fuel, exists s' c',
  ComputeOptim fuel ideal (sufficientReason (mkQConst "" opt_case)) weakSubsumption "x" (BasicQContext opt_tree) fresh_solver = (Hang, s', c').
Proof.
  intros fuel. apply (C45_reflexive ideal opt_tree opt_shape ex_naming (sufficientReason (mkQConst "" opt_case)) weakSubsumption "x" fuel fresh_solver weak_problem ideal_files ideal_correct eq_refl).
  - exists opt_case. apply (reason_satisfies opt_tree opt_shape opt_case opt_valid opt_full), opt_reason.
  - intros e He. exists (fun _ => e). split; [intros v; apply (satisfies_valid _ _ _ _ _ He)|]. split; [reflexivity|]. cbn. intros i _. auto.
Qed.
