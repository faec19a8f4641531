(* What the solver sees and says: outputs of a DIMACS solver, Step and Values. *)
From Verif Require Import GoBase GoLemmas Cnf Query Walk Atoms Logop Spec Meaning Truth CnfSem QueryLemmas Sym AtomBase AtomMain Form Master Block Ground Sat Dimacs Evolve Answer Compute Solver.
Local Open Scope string_scope.
Local Open Scope Z_scope.
Local Open Scope list_scope.

(* ---- specification: a solver's output ---- *)

(* Lines that do not begin with v, and lines of values. *)
Inductive oline := OText (s : string) | OVals (ls : list Z).
Definition line_text (l : oline) : string :=
  match l with
  | OText s => s
  | OVals ls => append "v " (sjoin sp (map itoa ls))
  end.
Definition line_ok (l : oline) : Prop :=
  match l with
  | OText s => no_char nl s = true /\ match s with String a _ => a <> "v"%char | EmptyString => True end
  | OVals ls => ls <> [] /\ Forall int64 ls
  end.
Definition line_vals (l : oline) : list Z := match l with OText _ => [] | OVals ls => ls end.
(* The output lists the numbers ls in lines of values, in whatever splitting. *)
Definition prints (out : string) (ls : list Z) : Prop :=
  exists lines, lines <> [] /\ Forall line_ok lines /\ out = sjoin nl (map line_text lines) /\ ls = flat_map line_vals lines.

(* The numbers say of each variable up to nv whether it is true; 0 ends the list. *)
Definition gives (nv : Z) (ls : list Z) (r : valuation) : Prop :=
  Forall (fun l => Z.abs l <= nv) ls /\
  forall n, 1 <= n <= nv -> (In n ls <-> r n = true) /\ (In (- n) ls <-> r n = false).

(* The program answers every DIMACS file correctly, each time it is run. *)
Definition correct_solver (E : Compute.env) : Prop :=
  forall k file nv nc cls, read_dimacs file = Some (nv, nc, cls) -> 0 <= nv < 2 ^ 63 ->
  clauses_bound nv cls ->
  ((exists r, clauses_true r cls = true) ->
   exists out err ls r, e_run E k file = RunExit 10 out err /\ prints out ls /\ gives nv ls r /\ clauses_true r cls = true) /\
  ((forall r, clauses_true r cls = false) -> exists out err, e_run E k file = RunExit 20 out err).
(* Files can be created and written. *)
Definition files_ok (E : Compute.env) : Prop :=
  forall k, e_tmp E k = true /\ e_create E k = true /\ forall i, e_write E k i = true.

(* ---- Step ---- *)

Lemma Models_all : forall r f, Models r f = clauses_true r (sClauses f ++ cClauses f).
Proof. intros r f. unfold Models, Sem, Con, clauses_true. now rewrite forallb_app. Qed.

(* Step on a query whose encoding is f. *)
Lemma Step_correct : forall E q s c f c', files_ok E -> correct_solver E -> enc q c = (Ok f, c') -> cnf_wf f -> tv f < 2 ^ 63 ->
  ((exists r, Models r f = true) ->
   exists out ls r, Step E q s c = (SSat, mkSolver out (S (bs_calls s)), c') /\ prints out ls /\ gives (tv f) ls r /\ Models r f = true) /\
  ((forall r, Models r f = false) -> Step E q s c = (SUnsat, mkSolver (bs_output s) (S (bs_calls s)), c')).
Proof.
  intros E q s c f c' FO CS EN (W0 & W1 & W2) B. unfold Step. destruct (FO (bs_calls s)) as (F1 & F2 & F3). rewrite F1, EN. cbn [negb].
  rewrite F2. rewrite ToFile_ok by (intros i _; apply F3).
  assert (RD := read_ToBytes f (clauses_bound_legal _ _ W1) (clauses_bound_legal _ _ W2)).
  destruct (CS (bs_calls s) (ToBytes f) _ _ _ RD (conj W0 B) (clauses_bound_app _ _ _ W1 W2)) as [A1 A2]. split.
  - intros (r & Hr). destruct A1 as (out & err & ls & r' & X1 & X2 & X3 & X4); [exists r; now rewrite <- Models_all|].
    exists out, ls, r'. rewrite X1. cbn. split; auto. split; auto. split; auto. now rewrite Models_all.
  - intros H. destruct A2 as (out & err & X1); [intros r; now rewrite <- Models_all|]. rewrite X1. reflexivity.
Qed.

(* ---- Values ---- *)

Definition listed (ls : list Z) (n : Z) : bool := existsb (Z.eqb n) ls.
Lemma listed_In : forall ls n, listed ls n = true <-> In n ls.
Proof.
  intros ls n. unfold listed. rewrite existsb_exists. split.
  - intros (x & H & E). apply Z.eqb_eq in E. now subst.
  - intros H. exists n. split; auto. apply Z.eqb_refl.
Qed.
Lemma gives_listed : forall nv ls r, gives nv ls r -> agree nv r (listed ls).
Proof.
  intros nv ls r [_ H] n Hn. destruct (H n Hn) as [A _]. destruct (r n) eqn:E.
  - symmetry. apply listed_In, A. reflexivity.
  - symmetry. apply not_true_iff_false. rewrite listed_In, A. discriminate.
Qed.
Lemma gives_one : forall nv ls r n, gives nv ls r -> 0 < n -> In n ls -> ~ In (- n) ls.
Proof.
  intros nv ls r n [B H] Hn I1 I2. rewrite Forall_forall in B. pose proof (B n I1). destruct (H n) as [A1 A2]; [lia|].
  apply A1 in I1. apply A2 in I2. congruence.
Qed.

(* the numbers in the lines *)
Definition note (flt : list Z) (m : bmap) (l : Z) : bmap := if existsb (Z.eqb (iAbs l)) flt then (iAbs l, 0 <? l) :: m else m.
Lemma parse_tokens_ok : forall flt ls m, Forall int64 ls -> parse_tokens flt (map itoa ls) m = Ok (fold_left (note flt) ls m).
Proof.
  intros flt ls. induction ls as [|l ls IH]; intros m H; simpl; auto. inversion H; subst. rewrite atoi_itoa by auto. cbn [rbind]. now apply IH.
Qed.
Lemma parse_lines_ok : forall flt lines m, Forall line_ok lines ->
  parse_lines flt (map line_text lines) m = Ok (fold_left (note flt) (flat_map line_vals lines) m).
Proof.
  intros flt. induction lines as [|[s|ls] lines IH]; intros m H; auto; inversion H as [|? ? H1 H2]; subst; cbn [map flat_map line_vals line_text].
  - cbn [parse_lines app]. destruct H1 as [_ H1]. destruct s as [|a s]; auto. destruct (Ascii.eqb_spec a "v"%char); [congruence|auto].
  - cbn [parse_lines append]. cbn [Ascii.eqb Bool.eqb]. cbn [drop2 rbind]. rewrite split_join.
    + destruct H1 as [_ H1]. rewrite parse_tokens_ok by auto. cbn [rbind]. rewrite fold_left_app. auto.
    + destruct H1 as [H1 _]. destruct ls; [congruence|discriminate].
    + clear. induction ls as [|l ls IH]; auto. cbn [map forallb]. now rewrite itoa_no_sp, IH.
Qed.
Lemma lines_split : forall lines, lines <> [] -> Forall line_ok lines -> split_on nl (sjoin nl (map line_text lines)) = map line_text lines.
Proof.
  intros lines N H. apply split_join; [destruct lines; [congruence|discriminate]|]. clear N. induction H as [|l lines Hl H IH]; auto. cbn [map forallb]. rewrite IH, andb_true_r.
  destruct l as [s|ls]; cbn [line_text line_ok] in *; [apply Hl|]. unfold no_char. cbn [append all_chars]. simpl.
  clear. induction ls as [|l [|l' ls] IH]; auto; [apply itoa_no_nl|]. cbn [map sjoin] in *.
  rewrite all_chars_app. cbn [all_chars]. rewrite IH. fold (no_char nl (itoa l)). rewrite itoa_no_nl. reflexivity.
Qed.
Lemma noted : forall flt n, In n flt -> 0 < n -> forall ls m, ~ (In n ls /\ In (- n) ls) ->
  bget (fold_left (note flt) ls m) n = if listed ls n then true else if listed ls (- n) then false else bget m n.
Proof.
  intros flt n Hf Hn. induction ls as [|l ls IH]; intros m H; auto. cbn [fold_left].
  rewrite IH by (intros [A B]; apply H; simpl; auto). unfold listed. cbn [existsb]. fold (listed ls n). fold (listed ls (- n)).
  assert (AB : iAbs l = Z.abs l) by (unfold iAbs; destruct (Z.ltb_spec 0 l); lia).
  destruct (Z.eqb_spec n l) as [<-|N1]; cbn [orb].
  - destruct (listed ls n) eqn:E1; auto. destruct (listed ls (- n)) eqn:E2.
    + apply listed_In in E2. exfalso. apply H. simpl; auto.
    + unfold note. rewrite AB, Z.abs_eq by lia. assert (existsb (Z.eqb n) flt = true) as -> by (apply existsb_exists; exists n; split; auto; apply Z.eqb_refl).
      cbn [bget]. rewrite Z.eqb_refl. now apply Z.ltb_lt.
  - destruct (listed ls n) eqn:E1; auto. destruct (Z.eqb_spec (- n) l) as [<-|N2]; cbn [orb].
    + destruct (listed ls (- n)); auto. unfold note. rewrite AB. replace (Z.abs (- n)) with n by lia.
      assert (existsb (Z.eqb n) flt = true) as -> by (apply existsb_exists; exists n; split; auto; apply Z.eqb_refl).
      cbn [bget]. rewrite Z.eqb_refl. apply Z.ltb_ge. lia.
    + destruct (listed ls (- n)); auto. unfold note. destruct (existsb (Z.eqb (iAbs l)) flt); auto. cbn [bget]. rewrite AB.
      destruct (Z.eqb_spec (Z.abs l) n); auto. lia.
Qed.
Lemma parsed : forall flt out ls n, prints out ls -> exists m, parse_lines flt (split_on nl out) [] = Ok m /\
  (In n flt -> 0 < n -> ~ (In n ls /\ In (- n) ls) -> bget m n = listed ls n).
Proof.
  intros flt out ls n (lines & N & H & -> & ->). exists (fold_left (note flt) (flat_map line_vals lines) []).
  split; [rewrite lines_split by auto; now apply parse_lines_ok|]. intros Hf Hn H1. rewrite noted by auto. destruct (listed _ n); auto. destruct (listed _ (- n)); auto.
Qed.

(* Reading a variable whose triples have numbers leaves the manager alone. *)
Lemma CNFVar_mapped : forall vm u, mapped vm u -> exists n, CNFVar vm u = (n, vm) /\ vlookup (vm_vars vm) u = Some n.
Proof.
  intros vm u H. unfold mapped in H. unfold CNFVar. destruct (vlookup (vm_vars vm) u) as [n|]; [|congruence]. exists n. auto.
Qed.
Definition wholly_mapped (vm : varman) (d : nat) (v : string) : Prop := forall i x, in_range d i -> valid_feat x -> mapped vm (v, i, x).

Lemma filter_mapped : forall vm d v, wholly_mapped vm d v ->
  snd (variableFilter vm d v) = vm /\
  forall n, In n (fst (variableFilter vm d v)) <-> exists i x, in_range d i /\ valid_feat x /\ vlookup (vm_vars vm) (v, i, x) = Some n.
Proof.
  intros vm d v W. unfold variableFilter.
  assert (G : forall l acc, Forall (in_range d) l ->
    exists fl, fold_left (fun acc i => let '(f, vm) := acc in let (b, vm) := CNFVar vm (v, i, BOT) in let (z, vm) := CNFVar vm (v, i, ZERO) in
       let (o, vm) := CNFVar vm (v, i, ONE) in (f ++ [b; z; o], vm)) l (acc, vm) = (fl, vm) /\
      forall n, In n fl <-> In n acc \/ exists i x, In i l /\ valid_feat x /\ vlookup (vm_vars vm) (v, i, x) = Some n).
  { induction l as [|i l IH]; intros acc H; cbn [fold_left].
    - exists acc. split; auto. intros n. split; auto. intros [X|(i & x & [] & _)]; auto.
    - inversion H as [|? ? H1 H2]; subst.
      destruct (CNFVar_mapped vm (v, i, BOT)) as (b & B1 & B2); [apply W; unfold valid_feat; auto|].
      destruct (CNFVar_mapped vm (v, i, ZERO)) as (z & Z1 & Z2); [apply W; unfold valid_feat; auto|].
      destruct (CNFVar_mapped vm (v, i, ONE)) as (o & O1 & O2); [apply W; unfold valid_feat; auto|].
      rewrite B1, Z1, O1. destruct (IH (acc ++ [b; z; o]) H2) as (fl & E & P). exists fl. split; [exact E|]. intros n. rewrite P, in_app_iff. split.
      + intros [[X|[<-|[<-|[<-|[]]]]]|(j & x & X1 & X2)]; auto; right.
        * exists i, BOT. simpl. unfold valid_feat. auto.
        * exists i, ZERO. simpl. unfold valid_feat. auto.
        * exists i, ONE. simpl. unfold valid_feat. auto.
        * exists j, x. simpl. auto.
      + intros [X|(j & x & [<-|X1] & X2 & X3)]; auto.
        * left. right. destruct X2 as [->|[->| ->]]; simpl; [left|right; left|right; right; left]; congruence.
        * right. exists j, x. auto. }
  destruct (G (zrange 0 (Z.of_nat d)) []) as (fl & E & P).
  { apply Forall_forall. intros i Hi. now apply In_zrange in Hi. }
  rewrite E. split; auto. intros n. cbn [fst]. rewrite P. split.
  - intros [[]|(i & x & X1 & X2)]. apply In_zrange in X1. exists i, x. auto.
  - intros (i & x & X1 & X2). right. exists i, x. split; auto. now apply In_zrange.
Qed.

Lemma read_mapped : forall vm d v m tv e, wholly_mapped vm d v -> rep d tv v e ->
  (forall i x n, in_range d i -> valid_feat x -> vlookup (vm_vars vm) (v, i, x) = Some n -> bget m n = tv (v, i, x)) ->
  read_value vm d v m = (e, vm).
Proof.
  intros vm d v m tv e W R H. unfold read_value.
  assert (G : forall l acc, Forall (in_range d) l ->
    fold_left (fun acc i => let '(val, vm) := acc in
       let (b, vm) := CNFVar vm (v, i, BOT) in
       if bget m b then (val ++ [BOT], vm)
       else let (o, vm) := CNFVar vm (v, i, ONE) in
         if bget m o then (val ++ [ONE], vm)
         else let (z, vm) := CNFVar vm (v, i, ZERO) in
           if bget m z then (val ++ [ZERO], vm) else (val, vm)) l (acc, vm) = (acc ++ map (feat e) l, vm)).
  { induction l as [|i l IH]; intros acc F; cbn [fold_left map].
    - now rewrite app_nil_r.
    - inversion F as [|? ? F1 F2]; subst.
      destruct (CNFVar_mapped vm (v, i, BOT)) as (b & B1 & B2); [apply W; unfold valid_feat; auto|].
      destruct (CNFVar_mapped vm (v, i, ZERO)) as (z & Z1 & Z2); [apply W; unfold valid_feat; auto|].
      destruct (CNFVar_mapped vm (v, i, ONE)) as (o & O1 & O2); [apply W; unfold valid_feat; auto|].
      rewrite B1. rewrite (H i BOT b), (rep_BOT _ _ _ _ _ R F1) by (auto; unfold valid_feat; auto).
      pose proof (valid_feat_at d e i (proj1 R)) as VF.
      rewrite O1. rewrite (H i ONE o), (rep_ONE _ _ _ _ _ R F1) by (auto; unfold valid_feat; auto).
      rewrite Z1. rewrite (H i ZERO z), (rep_ZERO _ _ _ _ _ R F1) by (auto; unfold valid_feat; auto).
      destruct VF as [V|[V|V]]; rewrite V; cbn [Z.eqb BOT ZERO ONE]; simpl; rewrite IH by auto; now rewrite <- app_assoc. }
  rewrite G.
  - cbn [app]. f_equal. destruct R as ((L & _) & _). rewrite <- L.
    transitivity (mapi_from 0 (fun _ a => a) e); [rewrite (mapi_from_zrange _ _ (fun _ a => a) BOT); reflexivity|].
    generalize 0. clear. induction e as [|a e IH]; intros k; simpl; auto. now rewrite IH.
  - apply Forall_forall. intros i Hi. now apply In_zrange in Hi.
Qed.

(* Values on the output of the solver. *)
Lemma value_read : forall out ls nv r v c e, vm_inv (cVM c) -> prints out ls -> gives nv ls r -> wholly_mapped (cVM c) (Dim (cModel c)) v ->
  rep (Dim (cModel c)) (read (cVM c) (listed ls)) v e -> varValueFromBytes out v c = (Ok (mkQConst "" e), c).
Proof.
  intros out ls nv r v [s vm m] e I P G W R. cbn [cVM cModel] in *. unfold varValueFromBytes. cbn [cVM cModel].
  destruct (filter_mapped vm (Dim m) v W) as [F1 F2]. destruct (variableFilter vm (Dim m) v) as [flt vm1]. cbn [fst snd] in *. subst vm1.
  destruct (parsed flt out ls 0 P) as (mp & M1 & _). rewrite M1.
  assert (B : forall n, In n flt -> 0 < n -> bget mp n = listed ls n).
  { intros n Hf Hn. destruct (parsed flt out ls n P) as (mp' & M1' & M2). assert (mp' = mp) as -> by congruence. apply M2; auto.
    intros [A1 A2]. eapply gives_one; eauto. }
  rewrite (read_mapped vm (Dim m) v mp (read vm (listed ls)) e); auto.
  intros i x n Hi Hx E. rewrite B.
  - unfold read. now rewrite E.
  - apply F2. eauto.
  - apply I in E. lia.
Qed.
Lemma Values_read : forall out ls nv r vars c (e : string -> inst), vm_inv (cVM c) -> prints out ls -> gives nv ls r ->
  (forall v, In v vars -> wholly_mapped (cVM c) (Dim (cModel c)) v /\ rep (Dim (cModel c)) (read (cVM c) (listed ls)) v (e v)) ->
  Values out vars c = (Ok (map (fun v => mkQConst "" (e v)) vars), c).
Proof.
  intros out ls nv r vars c e I P G. induction vars as [|v vars IH]; intros H; auto. cbn [Values map].
  destruct (H v) as [W R]; [simpl; auto|]. rewrite (value_read out ls nv r v c (e v)); auto. rewrite IH by (intros; apply H; simpl; auto). reflexivity.
Qed.

(* ---- a query and a correct solver ---- *)

(* Satisfiability is decidable. *)
Lemma Models_dec : forall f, cnf_wf f -> (exists r, Models r f = true) \/ (forall r, Models r f = false).
Proof.
  intros f (_ & W1 & W2). assert (L : legal (sClauses f ++ cClauses f)).
  { apply Forall_app. split; [exact (clauses_bound_legal _ _ W1)|exact (clauses_bound_legal _ _ W2)]. }
  destruct (solve (sClauses f ++ cClauses f)) as [a|] eqn:E.
  - left. exists (val_of a). rewrite Models_all. apply (solve_sat _ _ L E).
  - right. intros r. rewrite Models_all. now apply solve_unsat.
Qed.

(* What Step leaves behind when the query is true: an output from which Values
   reads instances that make the query true. *)
Record found (m : model) (t : tree) (q : query) (out : string) (c' : ctx) (ls : list Z) (E : Meaning.env) : Prop := {
  fd_prints : prints out ls;
  fd_env : valid_env (Dim m) E;
  fd_matrix : matrix (Dim m) t E [] q;
  fd_read : forall v i x, In v (block_vars q) -> in_range (Dim m) i -> valid_feat x ->
     exists n, vlookup (vm_vars (cVM c')) (v, i, x) = Some n /\ (In n ls <-> feat (E v) i = x);
  fd_values : forall vars, incl vars (block_vars q) -> Values out vars c' = (Ok (map (fun v => mkQConst "" (E v)) vars), c')
}.

Lemma solved_values : forall m t q vm f vm' out ls nv r, answer m t q vm f vm' -> prints out ls -> gives nv ls r -> tv f <= nv -> Models r f = true ->
  exists E, found m t q out (mkCtx S0 vm' m) ls E.
Proof.
  intros m t q vm f vm' out ls nv r A P G Hn Hr.
  assert (Hl : Con (listed ls) f = true /\ Sem (listed ls) f = true).
  { unfold Models in Hr. apply andb_true_iff in Hr as [Hs Hc]. pose proof (gives_listed _ _ _ G) as AG. destruct (an_wf _ _ _ _ _ _ A) as (_ & W1 & W2). split.
    - rewrite <- Hc. symmetry. unfold Con. eapply clauses_true_agree; [exact AG|]. eapply clauses_bound_weaken; eauto.
    - rewrite <- Hs. symmetry. unfold Sem. eapply clauses_true_agree; [exact AG|]. eapply clauses_bound_weaken; eauto. }
  destruct Hl as [Hc Hs]. destruct (an_sound _ _ _ _ _ _ A _ Hc Hs) as (E & V & M & D).
  assert (RP : forall v, In v (block_vars q) -> rep (Dim m) (read vm' (listed ls)) v (E v)).
  { intros v Hv. rewrite D by auto. apply (an_one _ _ _ _ _ _ A); auto. }
  exists E. constructor; auto.
  - intros v i x Hv Hi Hx. pose proof (an_mapped _ _ _ _ _ _ A v i x Hv Hi Hx) as Mp. unfold mapped in Mp. cbn [cVM].
    destruct (vlookup (vm_vars vm') (v, i, x)) as [n|] eqn:EN; [|congruence]. exists n. split; auto.
    destruct (RP v Hv) as [_ R]. specialize (R i Hi x Hx). unfold read in R. rewrite EN in R. rewrite <- listed_In, R. apply Z.eqb_eq.
  - intros vars Hv. eapply (Values_read out ls nv r vars (mkCtx S0 vm' m) E); cbn [cVM cModel]; eauto; [apply A|].
    intros v Iv. split; [|apply RP; auto]. intros i x Hi Hx. apply (an_mapped _ _ _ _ _ _ A); auto.
Qed.

Theorem Step_answers : forall S m t q vm f vm' s c, files_ok S -> correct_solver S -> enc q c = (Ok f, mkCtx S0 vm' m) -> answer m t q vm f vm' -> tv f < 2 ^ 63 ->
  (true_query (Dim m) t q /\ exists out ls E, Step S q s c = (SSat, mkSolver out (Datatypes.S (bs_calls s)), mkCtx S0 vm' m) /\ found m t q out (mkCtx S0 vm' m) ls E) \/
  (~ true_query (Dim m) t q /\ Step S q s c = (SUnsat, mkSolver (bs_output s) (Datatypes.S (bs_calls s)), mkCtx S0 vm' m)).
Proof.
  intros S m t q vm f vm' s c FO CS EN A B. pose proof (an_wf _ _ _ _ _ _ A) as W.
  destruct (Step_correct S q s c f _ FO CS EN W B) as [X1 X2]. destruct (Models_dec f W) as [D|D].
  - left. split; [now apply (answer_sat _ _ _ _ _ _ A)|]. destruct (X1 D) as (out & ls & r & E1 & E2 & E3 & E4).
    destruct (solved_values m t q vm f vm' out ls (tv f) r A E2 E3 (Z.le_refl _) E4) as (E & F). exists out, ls, E. auto.
  - right. split; [|now apply X2]. intros H. apply (answer_sat _ _ _ _ _ _ A) in H as (r & Hr). rewrite D in Hr. discriminate.
Qed.

(* ---- there are correct solvers ---- *)

Definition all_literals (nv : Z) (a : list Z) : list Z := map (fun n => if val_of a n then n else - n) (zrange 1 (nv + 1)) ++ [0].
Definition ideal_run (file : string) : run_result :=
  match read_dimacs file with
  | Some (nv, _, cls) =>
      match solve cls with
      | Some a => RunExit 10 (sjoin nl (map line_text [OText "s SATISFIABLE"; OVals (all_literals nv a); OText ""])) ""
      | None => RunExit 20 "s UNSATISFIABLE" ""
      end
  | None => RunExit 1 "" "parse error"
  end.
Definition ideal : Compute.env := mkEnv (fun _ => true) (fun _ => true) (fun _ _ => true) (fun _ => ideal_run) true.

Lemma ideal_files : files_ok ideal. Proof. intros k. auto. Qed.
Lemma ideal_correct : correct_solver ideal.
Proof.
  intros k file nv nc cls R B CB. cbn [ideal e_run]. unfold ideal_run. rewrite R. assert (L : legal cls) by exact (clauses_bound_legal _ _ CB). split.
  - intros (r & Hr). destruct (solve cls) as [a|] eqn:E; [|rewrite (solve_unsat cls L E) in Hr; discriminate].
    exists (sjoin nl (map line_text [OText "s SATISFIABLE"; OVals (all_literals nv a); OText ""])), "", (all_literals nv a), (val_of a).
    assert (IN : forall l, In l (all_literals nv a) <-> l = 0 \/ exists n, 1 <= n <= nv /\ l = if val_of a n then n else - n).
    { intros l. unfold all_literals. rewrite in_app_iff, in_map_iff. split.
      - intros [(n & <- & X)|[<-|[]]]; auto. right. exists n. apply In_zrange in X. split; auto. lia.
      - intros [->|(n & X & ->)]; [simpl; auto|]. left. exists n. split; auto. apply In_zrange. lia. }
    split; [reflexivity|]. split; [|split].
    + exists [OText "s SATISFIABLE"; OVals (all_literals nv a); OText ""]. split; [discriminate|]. split; [|split; [reflexivity|simpl; now rewrite app_nil_r]].
      repeat (apply Forall_cons); [split; [reflexivity|discriminate]| |split; [reflexivity|exact Logic.I]|constructor].
      split; [unfold all_literals; intros X; apply app_eq_nil in X as [_ X]; discriminate|].
      apply Forall_forall. intros l Hl. apply IN in Hl as [->|(n & X & ->)]; unfold int64; [lia|]. destruct (val_of a n); lia.
    + split; [|].
      * apply Forall_forall. intros l Hl. apply IN in Hl as [->|(n & X & ->)]; [simpl; lia|destruct (val_of a n); lia].
      * intros n Hn. rewrite !IN. split; split.
        -- intros [X|(n' & X & E')]; [lia|]. destruct (val_of a n') eqn:V; [congruence|lia].
        -- intros V. right. exists n. rewrite V. auto.
        -- intros [X|(n' & X & E')]; [lia|]. destruct (val_of a n') eqn:V; [lia|]. assert (n = n') by lia. congruence.
        -- intros V. right. exists n. rewrite V. auto.
    + apply (solve_sat _ _ L E).
  - intros H. destruct (solve cls) as [a|] eqn:E; [|eauto]. pose proof (solve_sat _ _ L E) as X. destruct X as (_ & _ & _ & X). rewrite H in X. discriminate.
Qed.
