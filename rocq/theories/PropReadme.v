(* Properties C48, C50: the query of the README and the solver outputs that can be read. *)
From Verif Require Import GoBase GoLemmas Cnf Query Walk Atoms Logop Spec Meaning Truth CnfSem QueryLemmas Sym AtomBase TreeLemmas WalkLemmas AtomMain Form Master Block Ground Sat AtomCnf Evolve Outcome Errors Names FirstOrder Answer Solver Dimacs Compute Run PropContext PropTruth PropCompute Optim PropOptim PropSize PropExamples.
Local Open Scope string_scope.
Local Open Scope Z_scope.
Local Open Scope list_scope.

(* ---- C48 ---- *)

(* README.md:75-88; the generator is the one of the examples *)
Definition readme_query : query :=
  QWith "x" (QAnd (QNot (QAtom (FullV "x"))) (QAtom (AllV "x" false (Some reachableVarGen)))).

(* A partial instance all of whose completions have class b. *)
Definition settled (d : nat) (t : tree) (b : bool) (e : inst) : Prop :=
  valid_inst d e /\ (exists i, in_range d i /\ feat e i = BOT) /\
  forall x, completion d e x -> classify t x = b.

Lemma not_full : forall d e, valid_inst d e -> (~ full d e <-> exists i, in_range d i /\ feat e i = BOT).
Proof.
  intros d e V. split.
  - intros H. destruct (existsb (fun i => feat e i =? BOT) (indices_below d)) eqn:X.
    + apply existsb_exists in X as (i & Hi & Ei). exists i. split; [now apply in_indices|lia].
    + elim H. intros i Hi Ei. assert (Y : existsb (fun i => feat e i =? BOT) (indices_below d) = true) by (apply existsb_exists; exists i; split; [now apply in_indices|lia]). congruence.
  - intros (i & Hi & Ei) H. exact (H i Hi Ei).
Qed.

Theorem C48_readme_query : forall E m t s, is_dtree m t -> Z.of_nat (5 * unit_size (Dim m) (length (Nodes m))) < 2 ^ 63 -> files_ok E -> correct_solver E ->
  exists b s' c', CombSat E (CAtom readme_query false) s (BasicQContext m) = (Ok b, s', c') /\
    (b = true <-> exists e, settled (Dim m) t false e) /\
    (b = true -> exists e, Values (bs_output s') ["x"] c' = (Ok [mkQConst "" e], c') /\ settled (Dim m) t false e).
Proof.
  intros E m t s DT SZ FO CS. pose proof (proj1 DT) as Hd.
  assert (W : wf_query m t readme_query).
  { assert (IX : incl ["x"] ["x"]) by apply incl_refl.
    constructor; [cbn; auto|cbn; tauto|cbn; tauto| |split; repeat constructor].
    split; (split; [|try exact DT; exact Logic.I]); (split; [apply Forall_nil|]; split; [try discriminate; exact Logic.I|]; split; exact Logic.I). }
  assert (T : tidy ex_naming (Dim m) readme_query).
  { apply ex_tidy; auto; [repeat constructor|repeat constructor; auto]. }
  assert (F : fits m readme_query).
  { apply C44_fits. cbn [qlen qdepth readme_query Nat.pow Nat.max Nat.add]. rewrite Nat.mul_1_r. lia. }
  destruct (fresh_answer m t readme_query ex_naming Hd (fun _ => DT) W T) as (f & vm' & EN & A).
  assert (ME : forall e0, matrix (Dim m) t e0 [] readme_query -> valid_env (Dim m) e0 -> settled (Dim m) t false (e0 "x")).
  { intros e0 [H1 H2] V. split; [apply V|]. split; [apply not_full; [apply V|exact H1]|exact H2]. }
  assert (TQ : true_query (Dim m) t readme_query <-> exists e, settled (Dim m) t false e).
  { split.
    - intros (e0 & V & M). exists (e0 "x"). now apply ME.
    - intros (e & V & N & H). exists (fun _ => e). split; [intros v; exact V|]. split; [apply not_full; auto|exact H]. }
  destruct (Step_answers E m t readme_query _ f vm' s _ FO CS EN A (F _ _ EN)) as [(H & out & ls & e & ST & FD)|(H & ST)]; cbn [CombSat]; rewrite ST.
  - exists true. do 2 eexists. split; [reflexivity|]. split; [rewrite <- TQ; tauto|]. intros _. exists (e "x"). destruct FD as [_ FV FM _ FVal]. split; [|now apply ME].
    cbn [bs_output]. apply (FVal ["x"]). intros v [<-|[]]. cbn. auto.
  - exists false. do 2 eexists. split; [reflexivity|]. split; [rewrite <- TQ; split; [discriminate|tauto]|discriminate].
Qed.
Print Assumptions C48_readme_query.

(* The text before the query speaks of positive completions. *)
Definition hopeful : model := mkModel 1 [mkNode true 0 (-1) (-1)].
Definition hopeful_tree : tree := Leaf 0 true.
Lemma hopeful_is_dtree : is_dtree hopeful hopeful_tree.
Proof.
  split; [simpl; lia|]. split; [reflexivity|]. split.
  - split; [lia|]. eexists. split; [reflexivity|]. split; reflexivity.
  - split; [repeat constructor; simpl; tauto|]. split; [reflexivity|exact Logic.I].
Qed.
Theorem C48_as_described_refuted : exists m t s' c', is_dtree m t /\
  CombSat ideal (CAtom readme_query false) fresh_solver (BasicQContext m) = (Ok false, s', c') /\ exists e, settled (Dim m) t true e.
Proof.
  exists hopeful, hopeful_tree. do 2 eexists. split; [exact hopeful_is_dtree|]. split; [vm_compute; reflexivity|].
  exists [BOT]. split; [split; [reflexivity|repeat constructor]|]. split; [exists 0; split; [split; cbn; lia|reflexivity]|]. intros x _. reflexivity.
Qed.
Print Assumptions C48_as_described_refuted.

Definition readme_run := CombSat ideal (CAtom readme_query false) fresh_solver (BasicQContext opt_tree).
Lemma readme_run_ok : fst (fst readme_run) = Ok true.
Proof. vm_compute. reflexivity. Qed.
Example C48_case : exists s' c', readme_run = (Ok true, s', c') /\
  exists e, Values (bs_output s') ["x"] c' = (Ok [mkQConst "" e], c') /\ settled 3 opt_shape false e.
Proof.
  assert (SZ : Z.of_nat (5 * unit_size (Dim opt_tree) (length (Nodes opt_tree))) < 2 ^ 63) by (vm_compute; reflexivity).
  pose proof (C48_readme_query ideal opt_tree opt_shape fresh_solver opt_is_dtree SZ ideal_files ideal_correct) as H. fold readme_run in H. pose proof readme_run_ok as Q.
  revert H Q. generalize readme_run. intros p (b & s' & c' & -> & _ & Y) Q. injection Q as ->. exists s', c'. split; [reflexivity|]. exact (Y eq_refl).
Qed.

(* ---- C50 ---- *)

(* The output format of the solver competitions: lines of comments and of the
   verdict, and lines made of a v and numbers set apart by blanks. *)
Fixpoint blanks (n : nat) : string := match n with O => "" | S n => String sp (blanks n) end.
Inductive vline :=
| VOther (s : string)
| VNums (nums : list (nat * Z)) (trail : nat).   (* the blanks before each number, the number; the blanks at the end *)
Fixpoint nums_text (nums : list (nat * Z)) (trail : nat) : string :=
  match nums with
  | [] => blanks trail
  | (n, z) :: r => append (blanks n) (append (itoa z) (nums_text r trail))
  end.
Definition vtext (l : vline) : string := match l with VOther s => s | VNums nums trail => String "v" (nums_text nums trail) end.
Definition vline_ok (l : vline) : Prop :=
  match l with
  | VOther s => no_char nl s = true /\ match s with String a _ => a <> "v"%char | EmptyString => True end
  | VNums nums _ => Forall (fun p => (1 <= fst p)%nat /\ int64 (snd p)) nums
  end.
Definition vvals (l : vline) : list Z := match l with VOther _ => [] | VNums nums _ => map snd nums end.
Definition competition (out : string) (ls : list Z) : Prop :=
  exists lines, lines <> [] /\ Forall vline_ok lines /\ out = sjoin nl (map vtext lines) /\ ls = flat_map vvals lines.

(* One blank before each number, none at the end, at least one number. *)
Definition tight (l : vline) : bool :=
  match l with
  | VOther _ => true
  | VNums nums trail => negb (length nums =? 0)%nat && forallb (fun p => (fst p =? 1)%nat) nums && (trail =? 0)%nat
  end.
Definition bare (l : vline) : bool := match l with VNums [] O => true | _ => false end.

(* the fields of a line *)
Fixpoint fields (nums : list (nat * Z)) (trail : nat) : list string :=
  match nums with
  | [] => repeat "" trail
  | (n, z) :: r => repeat "" (n - 1) ++ itoa z :: fields r trail
  end.
Lemma split_blanks : forall n s, split_on sp (append (blanks n) s) = repeat "" n ++ split_on sp s.
Proof. induction n as [|n IH]; intros s; cbn [blanks append repeat app]; auto. cbn [split_on]. rewrite Ascii.eqb_refl. now rewrite IH. Qed.
Lemma split_fields : forall nums trail, Forall (fun p => (1 <= fst p)%nat /\ int64 (snd p)) nums -> split_on sp (nums_text nums trail) = "" :: fields nums trail.
Proof.
  induction nums as [|[n z] nums IH]; intros trail H; cbn [nums_text fields].
  - rewrite <- (sapp_nil_r (blanks trail)), split_blanks. cbn [split_on]. clear. induction trail as [|k IH]; auto. cbn [repeat app]. now rewrite IH.
  - inversion H as [|? ? [H1 _] H2]; subst. cbn [fst] in H1. rewrite split_blanks. specialize (IH trail H2).
    assert (X : split_on sp (append (itoa z) (nums_text nums trail)) = itoa z :: fields nums trail).
    { destruct (nums_text nums trail) as [|a r] eqn:E.
      - rewrite sapp_nil_r, split_nosep by apply itoa_no_sp. cbn in IH. injection IH as <-. reflexivity.
      - assert (a = sp) as ->.
        { destruct nums as [|[n' z'] nums]; cbn [nums_text] in E.
          - destruct trail; [discriminate|]. injection E as <- _. reflexivity.
          - inversion H2 as [|? ? [H3 _] _]; subst. cbn [fst] in H3. destruct n'; [lia|]. injection E as <- _. reflexivity. }
        rewrite split_app by apply itoa_no_sp. cbn [split_on] in IH. rewrite Ascii.eqb_refl in IH. injection IH as IH. now rewrite IH. }
    rewrite X. destruct n as [|n]; [lia|]. cbn [repeat app]. replace (S n - 1)%nat with n by lia. reflexivity.
Qed.
Lemma empty_token : forall flt toks nums m, Forall int64 nums -> parse_tokens flt (map itoa nums ++ "" :: toks) m = Err (atoi_err "").
Proof. intros flt toks. induction nums as [|z nums IH]; intros m H; [reflexivity|]. inversion H; subst. cbn [map app parse_tokens]. rewrite atoi_itoa by auto. cbn [rbind]. auto. Qed.
Lemma loose_fields : forall nums trail, Forall (fun p => (1 <= fst p)%nat /\ int64 (snd p)) nums ->
  forallb (fun p => (fst p =? 1)%nat) nums && (trail =? 0)%nat = false ->
  exists zs r, fields nums trail = map itoa zs ++ "" :: r /\ Forall int64 zs.
Proof.
  induction nums as [|[n z] nums IH]; intros trail H T.
  - cbn in T. destruct trail; [discriminate|]. exists [], (repeat "" trail). split; [reflexivity|constructor].
  - inversion H as [|? ? [H1 H2] H3]; subst. cbn [fst snd forallb fields] in *. destruct (Nat.eqb_spec n 1) as [->|N].
    + destruct (IH trail H3 T) as (zs & r & E & F). exists (z :: zs), r. rewrite E. split; [reflexivity|constructor; auto].
    + exists [], (repeat "" (n - 2) ++ itoa z :: fields nums trail). split; [|constructor]. destruct n as [|[|n]]; try lia. cbn [Nat.sub repeat app map]. now rewrite Nat.sub_0_r.
Qed.
Lemma tight_text : forall nums, nums <> [] -> forallb (fun p => (fst p =? 1)%nat) nums = true -> nums_text nums 0 = String sp (sjoin sp (map itoa (map snd nums))).
Proof.
  induction nums as [|[n z] nums IH]; intros N T; [congruence|]. cbn [forallb fst] in T. apply andb_true_iff in T as [T1 T2]. apply Nat.eqb_eq in T1 as ->. cbn [nums_text blanks append map snd].
  destruct nums as [|p nums]; [now rewrite sapp_nil_r|]. rewrite IH by (auto; discriminate). reflexivity.
Qed.

(* A line that is not tight stops the reading. *)
Lemma loose_line : forall flt l r m, vline_ok l -> tight l = false ->
  parse_lines flt (vtext l :: r) m = if bare l then Panic else Err (atoi_err "").
Proof.
  intros flt [s|nums trail] r m H T; [discriminate|]. cbn [vtext parse_lines vline_ok] in *. cbn [Ascii.eqb Bool.eqb]. pose proof (split_fields nums trail H) as SF.
  destruct (nums_text nums trail) as [|a rest] eqn:E.
  - assert (bare (VNums nums trail) = true) as ->; [|reflexivity]. destruct nums as [|[n z] nums]; cbn [nums_text] in E.
    + destruct trail; [reflexivity|discriminate].
    + inversion H as [|? ? [H1 _] _]; subst. cbn [fst] in H1. destruct n; [lia|discriminate].
  - assert (bare (VNums nums trail) = false) as -> by (destruct nums; [destruct trail; [discriminate|reflexivity]|reflexivity]).
    cbn [drop2 rbind]. assert (a = sp) as ->.
    { destruct nums as [|[n z] nums]; cbn [nums_text] in E; [destruct trail; [discriminate|]; now injection E as <- _|].
      inversion H as [|? ? [H1 _] _]; subst. cbn [fst] in H1. destruct n; [lia|]. now injection E as <- _. }
    cbn [split_on] in SF. rewrite Ascii.eqb_refl in SF. injection SF as SF. rewrite SF.
    assert (X : exists zs r, fields nums trail = map itoa zs ++ "" :: r /\ Forall int64 zs).
    { destruct nums as [|p nums].
      - destruct trail; [discriminate|]. exists [], (repeat "" trail). split; [reflexivity|constructor].
      - apply loose_fields; auto. }
    destruct X as (zs & r' & -> & F). now rewrite empty_token.
Qed.
Lemma tight_line : forall l, vline_ok l -> tight l = true -> exists o, line_ok o /\ line_text o = vtext l /\ line_vals o = vvals l.
Proof.
  intros [s|nums trail] H T; [exists (OText s); auto|]. cbn [tight] in T. apply andb_true_iff in T as [T T3]. apply andb_true_iff in T as [T1 T2]. apply Nat.eqb_eq in T3 as ->.
  assert (N : nums <> []) by (destruct nums; discriminate). exists (OVals (map snd nums)). split; [|split].
  - split; [destruct nums; [congruence|discriminate]|]. apply Forall_map. eapply Forall_impl; [|exact H]. intros p [_ X]. exact X.
  - cbn [line_text vtext]. now rewrite tight_text.
  - reflexivity.
Qed.
Lemma tight_lines : forall lines, Forall vline_ok lines -> forallb tight lines = true ->
  exists os, Forall line_ok os /\ map line_text os = map vtext lines /\ flat_map line_vals os = flat_map vvals lines.
Proof.
  induction lines as [|l lines IH]; intros H T; [exists []; auto|]. inversion H; subst. cbn [forallb] in T. apply andb_true_iff in T as [T1 T2].
  destruct (tight_line l) as (o & A1 & A2 & A3); auto. destruct IH as (os & B1 & B2 & B3); auto. exists (o :: os). split; [auto|]. cbn [map flat_map]. split; congruence.
Qed.
Lemma vtext_no_nl : forall l, vline_ok l -> no_char nl (vtext l) = true.
Proof.
  intros [s|nums trail] H; [apply H|]. cbn [vtext vline_ok] in *. unfold no_char. cbn [all_chars]. simpl. clear H. induction nums as [|[n z] nums IH]; cbn [nums_text].
  - induction trail as [|k IH]; auto.
  - rewrite !all_chars_app, IH. fold (no_char nl (itoa z)). rewrite itoa_no_nl. cbn [andb]. rewrite ?andb_true_r. clear. induction n as [|n IH]; auto.
Qed.

(* The reading of a competition output, in full: it works when every line of
   values is tight, and then it is the reading of C25; otherwise the first line
   that is not tight decides. *)
Theorem C50_exactly : forall lines v vars c, lines <> [] -> Forall vline_ok lines ->
  let out := sjoin nl (map vtext lines) in
  match find (fun l => negb (tight l)) lines with
  | None => prints out (flat_map vvals lines)
  | Some l => fst (Values out (v :: vars) c) = if bare l then Panic else Err (atoi_err "")
  end.
Proof.
  intros lines v vars c N H. cbv zeta. destruct (find (fun l => negb (tight l)) lines) as [l|] eqn:F.
  - cbn [Values]. unfold varValueFromBytes. destruct (variableFilter (cVM c) (Dim (cModel c)) v) as [flt vm].
    rewrite split_join; [|destruct lines; [congruence|discriminate]|].
    2:{ clear F N. induction H as [|x lines H1 H2 IH]; auto. cbn [map forallb]. now rewrite vtext_no_nl, IH. }
    assert (P : forall m, parse_lines flt (map vtext lines) m = if bare l then Panic else Err (atoi_err "")).
    { clear N. induction H as [|x lines H1 H2 IH]; intros m; [discriminate|]. cbn [find] in F. destruct (tight x) eqn:T; cbn [negb] in F.
      - destruct (tight_line x H1 T) as (o & A1 & A2 & A3). cbn [map]. rewrite <- A2. destruct o as [s|ls].
        + cbn [line_text parse_lines]. destruct A1 as [_ A1]. destruct s as [|a s]; [auto|]. destruct (Ascii.eqb_spec a "v"%char); [congruence|auto].
        + pose proof (parse_lines_ok flt [OVals ls] m (Forall_cons _ A1 (Forall_nil _))) as Q. cbn [map line_text parse_lines append] in *. cbn [Ascii.eqb Bool.eqb] in *. cbn [drop2 rbind] in *.
          destruct (parse_tokens flt (split_on sp (sjoin sp (map itoa ls))) m) as [m'|e| |] eqn:PT; cbn [rbind] in *; try discriminate. apply IH; auto.
      - injection F as <-. cbn [map]. now apply loose_line. }
    rewrite P. destruct (bare l); reflexivity.
  - destruct (tight_lines lines H) as (os & A1 & A2 & A3).
    + apply forallb_forall. intros x Hx. pose proof (find_none _ _ F x Hx) as X. now apply negb_false_iff in X.
    + exists os. rewrite A2, A3. split; [|auto]. intros ->. destruct lines; [congruence|discriminate].
Qed.
Print Assumptions C50_exactly.

(* In particular every output of a correct solver of this model is one. *)
Theorem C50_prints : forall out ls, prints out ls -> competition out ls.
Proof.
  intros out ls (lines & N & H & -> & ->). assert (MS : forall zs : list Z, map snd (map (fun z => (1%nat, z)) zs) = zs) by (intros zs; rewrite map_map; apply map_id).
  exists (map (fun o => match o with OText s => VOther s | OVals ls => VNums (map (fun z => (1%nat, z)) ls) 0 end) lines).
  split; [destruct lines; [congruence|discriminate]|]. clear N. split; [|split].
  - apply Forall_map. eapply Forall_impl; [|exact H]. intros [s|zs] A; [exact A|]. destruct A as [_ A]. cbn [vline_ok]. apply Forall_map. eapply Forall_impl; [|exact A]. intros z Hz. split; [apply le_n|exact Hz].
  - f_equal. rewrite map_map. apply map_ext_in. intros o Ho. rewrite Forall_forall in H. specialize (H o Ho). destruct o as [s|zs]; [reflexivity|]. destruct H as [A _]. cbn [line_text vtext].
    rewrite tight_text; [|destruct zs; [congruence|discriminate]|clear; induction zs; auto]. cbn [append]. now rewrite MS.
  - rewrite flat_map_concat_map, (flat_map_concat_map vvals), map_map. f_equal. apply map_ext. intros [s|zs]; [reflexivity|]. cbn [line_vals vvals]. now rewrite MS.
Qed.
Print Assumptions C50_prints.

(* Right answers in the format that cannot be read: a second blank between two
   numbers, a blank at the end of a line, a v alone. *)
Definition two_blanks : list vline := [VOther "s SATISFIABLE"; VNums [(1%nat, -1); (2%nat, 2); (1%nat, -3); (1%nat, 0)] 0].
Definition blank_end : list vline := [VOther "s SATISFIABLE"; VNums [(1%nat, -1); (1%nat, 2); (1%nat, -3); (1%nat, 0)] 1].
Definition lone_v : list vline := [VOther "s SATISFIABLE"; VNums [(1%nat, -1); (1%nat, 2); (1%nat, -3); (1%nat, 0)] 0; VNums [] 0].
Definition unread (lines : list vline) (r : res (list QConst)) : Prop :=
  exists m f c' w ls, let out := sjoin nl (map vtext lines) in
    enc (QWith "x" (QAtom (FullV "x"))) (BasicQContext m) = (Ok f, c') /\ competition out ls /\ gives (tv f) ls w /\ Models w f = true /\ fst (Values out ["x"] c') = r.
Lemma three_unread : forall lines r, lines <> [] -> Forall vline_ok lines -> flat_map vvals lines = [-1; 2; -3; 0] ->
  (forall c, fst (Values (sjoin nl (map vtext lines)) ["x"] c) = r) -> unread lines r.
Proof.
  intros lines r N H E V. exists hopeful. do 2 eexists. exists (fun n => n =? 2), [-1; 2; -3; 0]. cbv zeta. split; [vm_compute; reflexivity|]. split; [|split; [|split]].
  - exists lines. auto.
  - split; [repeat (apply Forall_cons; [cbn; lia|]); apply Forall_nil|].
    intros n Hn. assert (X : n = 1 \/ n = 2 \/ n = 3) by (cbn in Hn; lia).
    destruct X as [->|[->| ->]]; vm_compute; split; split; intros Q; try reflexivity; try discriminate; intuition congruence.
  - vm_compute. reflexivity.
  - apply V.
Qed.
Theorem C50_any_output_refuted : unread two_blanks (Err (atoi_err "")) /\ unread blank_end (Err (atoi_err "")) /\ unread lone_v Panic.
Proof.
  assert (OK : forall l, forallb (fun l => match l with VOther s => no_char nl s && match s with String a _ => negb (Ascii.eqb a "v") | _ => true end
     | VNums nums _ => forallb (fun p => (1 <=? fst p)%nat && ((- 2 ^ 63 <=? snd p) && (snd p <? 2 ^ 63))) nums end) l = true -> Forall vline_ok l).
  { intros l. rewrite forallb_forall. intros H. apply Forall_forall. intros [s|nums k] Hx; specialize (H _ Hx); cbn beta iota in H.
    - apply andb_true_iff in H as [H1 H2]. split; auto. destruct s as [|a s]; auto. intros ->. discriminate.
    - apply Forall_forall. intros p Hp. rewrite forallb_forall in H. specialize (H p Hp). apply andb_true_iff in H as [H1 H2]. apply Nat.leb_le in H1. split; auto. unfold int64. lia. }
  assert (S : forall lines r, lines <> [] -> Forall vline_ok lines -> flat_map vvals lines = [-1; 2; -3; 0] ->
    match find (fun l => negb (tight l)) lines with Some l => (if bare l then Panic else Err (atoi_err "")) = r | None => False end -> unread lines r).
  { intros lines r N H V F. apply three_unread; auto. intros c. pose proof (C50_exactly lines "x" [] c N H) as X. cbv zeta in X.
    destruct (find (fun l => negb (tight l)) lines); [now rewrite X|contradiction]. }
  split; [|split]; (apply S; [discriminate|apply OK; reflexivity|reflexivity|reflexivity]).
Qed.
Print Assumptions C50_any_output_refuted.
