(* Property C68: the program that C61 to C67 speak of is what the Go files say.
   [repo_text] is the files, byte for byte; [translate] reads them (lexical
   analysis, parsing, resolution of names and zero values).  With this the
   translator tools/go2coq.py need not be trusted: the theorems at the end start
   from the bytes. *)
From Verif Require Import GoBase GoLemmas Cnf CnfSem Query QueryLemmas Walk Atoms Logop Spec Sat Compute GoLang GoSource SrcBase SrcLemmas SrcCnf SrcQuery SrcCtx SrcLogop SrcValues SrcSolver SrcCompute
  Outcome Evolve Errors Form TreeLemmas Names Ground Meaning Master Truth FirstOrder Solver AtomCnf Dimacs Run Total Optim PropContext PropTruth PropCompute PropContext PropTruth PropRefuted PropShared PropOptim PropSize PropExamples PropText PropProgram PropMain GoParse GoElab GoText.
Local Open Scope string_scope.
Local Open Scope Z_scope.
Local Open Scope list_scope.

Definition decls (files : list (string * string)) : list decl :=
  match omap (fun f => parse (snd f)) files with Some l => concat l | None => [] end.
Definition the_decls : list decl := decls repo_text.

(* Every function of every file is translated, to the program of GoSource.v. *)
Theorem C68_translation : translate repo_text = Some (source, source_globals, source_embedded).
Proof. vm_compute. match goal with |- _ = ?b => exact (eq_refl b) end. Qed.
Print Assumptions C68_translation.

(* Where names decide without types, they decide the same for all types: no function
   has the name of a variadic one without being variadic in the same place, no method
   that of a field of function type, and no two functions, types or values of a
   package share a name. *)
Definition funcs_of (ds : list decl) : list fdecl := flat_map (fun d => match d with DFunc f => [f] | _ => [] end) ds.
Definition spot (f : fdecl) : option nat :=
  match rev (fd_ps f) with (_, TyDots _) :: r => Some (length r) | _ => None end.
Definition field_types (ds : list decl) (x : string) : list ty :=
  flat_map (fun d => match d with
    | DType _ _ (TyStruct fs) => flat_map (fun f => match f with (y, t, _) => if String.eqb x y then [t] else [] end) fs
    | _ => [] end) ds.
Definition named (ds : list decl) : list (string * string) :=
  flat_map (fun d => match d with
    | DType p n _ => [(p, n)]
    | DVal v => [(vd_pkg v, vd_name v)]
    | DFunc f => match fd_recv f with None => [(fd_pkg f, fd_name f)] | Some _ => [] end
    end) ds.
Fixpoint distinct {A} (eqb : A -> A -> bool) (l : list A) : bool :=
  match l with [] => true | x :: r => negb (existsb (eqb x) r) && distinct eqb r end.
Lemma distinct_ok {A} (eqb : A -> A -> bool) (H : forall x y, eqb x y = true <-> x = y) l : distinct eqb l = true -> NoDup l.
Proof.
  induction l as [|x r IH]; intros D; [constructor|]. cbn [distinct] in D. apply andb_prop in D as [D1 D2]. constructor; [|auto].
  intros I. apply Bool.negb_true_iff in D1. rewrite <- Bool.not_true_iff_false in D1. apply D1. apply existsb_exists. exists x. split; [exact I|now apply H].
Qed.
Definition pair_eqb (a b : string * string) : bool := String.eqb (fst a) (fst b) && String.eqb (snd a) (snd b).
Lemma pair_eqb_ok a b : pair_eqb a b = true <-> a = b.
Proof.
  destruct a, b. unfold pair_eqb. cbn. rewrite Bool.andb_true_iff, !String.eqb_eq. split; [intros [-> ->]; reflexivity|intros [= -> ->]; auto].
Qed.
Definition onat_eqb (a b : option nat) : bool :=
  match a, b with Some x, Some y => Nat.eqb x y | None, None => true | _, _ => false end.
Definition is_func_type (t : ty) : bool := match t with TyFunc => true | _ => false end.

Definition names_ok (ds : list decl) (keys : list string) : bool :=
  distinct pair_eqb (named ds) && distinct String.eqb keys
  && forallb (fun f => onat_eqb (variadic ds (fd_name f)) (spot f)) (funcs_of ds)
  && forallb (fun f => negb (fun_field ds (fd_name f))) (funcs_of ds)
  && forallb (fun d => match d with
       | DType _ _ (TyStruct fs) => forallb (fun f => match f with (x, t, _) =>
           negb (fun_field ds x) || forallb is_func_type (field_types ds x) end) fs
       | _ => true end) ds.
Lemma names_right ds keys : names_ok ds keys = true ->
  NoDup (named ds) /\ NoDup keys /\
  (forall f, In f (funcs_of ds) -> variadic ds (fd_name f) = spot f) /\
  (forall f x, In f (funcs_of ds) -> fd_name f = x -> fun_field ds x = false) /\
  (forall x t, fun_field ds x = true -> In t (field_types ds x) -> t = TyFunc).
Proof.
  unfold names_ok. intros H. apply andb_prop in H as [H H5]. apply andb_prop in H as [H H4]. apply andb_prop in H as [H H3].
  apply andb_prop in H as [H1 H2]. split; [|split; [|split; [|split]]].
  - exact (distinct_ok pair_eqb pair_eqb_ok _ H1).
  - exact (distinct_ok String.eqb String.eqb_eq _ H2).
  - intros f I. rewrite forallb_forall in H3. specialize (H3 f I). destruct (variadic _ _), (spot f); cbn in H3; try discriminate; [|reflexivity].
    apply Nat.eqb_eq in H3. now subst.
  - intros f x I <-. rewrite forallb_forall in H4. now apply Bool.negb_true_iff, H4.
  - intros x t F I. rewrite forallb_forall in H5.
    pose proof F as F'. unfold fun_field in F'. apply existsb_exists in F' as (d & Id & Hd).
    specialize (H5 d Id). destruct d as [p n [| | | | | |fs| |]| |]; try discriminate.
    apply existsb_exists in Hd as ([[y u] e] & If & Hf). destruct u; try discriminate. apply String.eqb_eq in Hf. subst y.
    rewrite forallb_forall in H5. specialize (H5 _ If). cbn in H5. rewrite F in H5. cbn in H5. rewrite forallb_forall in H5.
    specialize (H5 _ I). destruct t; try discriminate. reflexivity.
Qed.
Theorem C68_names :
  NoDup (named the_decls) /\ NoDup (map fst source) /\
  (forall f, In f (funcs_of the_decls) -> variadic the_decls (fd_name f) = spot f) /\
  (forall f x, In f (funcs_of the_decls) -> fd_name f = x -> fun_field the_decls x = false) /\
  (forall x t, fun_field the_decls x = true -> In t (field_types the_decls x) -> t = TyFunc).
Proof. apply names_right. vm_compute. reflexivity. Qed.
Print Assumptions C68_names.

(* ---- the program in the files ---- *)

Definition load (files : list (string * string)) : option program :=
  match translate files with
  | Some (fs, gs, em) => Some (mkProgram fs em (init_globals gs))
  | None => None
  end.
Lemma load_of files fs gs em g : translate files = Some (fs, gs, em) -> init_globals gs = g -> load files = Some (mkProgram fs em g).
Proof. unfold load. intros -> <-. reflexivity. Qed.
Lemma load_repo : load repo_text = Some prog.
Proof.
  refine (load_of _ _ _ _ _ C68_translation _).
  vm_compute. match goal with |- _ = ?b => exact (eq_refl b) end.
Qed.

(* ctx := query.BasicQContext(m), and then q.Encoding(ctx), *)
Definition run_encoding (P : program) (n : nat) (m : model) (q : query) : res (list val) * heap :=
  match call_func P n "query.BasicQContext" [v_model m] [] with
  | (Ok [VPtr 0], h) => call_func P n (type_of (v_query q) ++ ".Encoding") [v_query q; VPtr 0] h
  | (_, h) => (Panic, h)
  end.
(* or solver, err := compute.BinSolver(path) and k.Sat(ctx, solver), *)
Definition run_solver (P : program) (n : nat) (m : model) (o : os) (path : string) : res (list val) * heap :=
  match call_func P n "query.BasicQContext" [v_model m] [] with
  | (Ok [VPtr 0], h) => call_func P n "compute.BinSolver" [VStr path] (h ++ [VSys o])
  | (_, h) => (Panic, h)
  end.
Definition run_sat (P : program) (n : nat) (m : model) (o : os) (path : string) (k : comb) : res (list val) * heap :=
  match run_solver P n m o path with
  | (Ok [s; VNil], h) => call_func P n (type_of (v_comb k) ++ ".Sat") [v_comb k; VPtr 0; s] h
  | (_, h) => (Panic, h)
  end.
(* or compute.ComputeOptim(fg, og, v, ctx, solver) *)
Definition run_optim (P : program) (n : nat) (m : model) (o : os) (path : string) (fg : QVar -> query) (og : QVar -> QConst -> query) (v : QVar)
  : res (list val) * heap :=
  match run_solver P n m o path with
  | (Ok [s; VNil], h) => call_func P n "compute.ComputeOptim" [v_fg fg; v_og og; VStr v; VPtr 0; s] h
  | (_, h) => (Panic, h)
  end.

(* The formula the files compute for a query is satisfiable if and only if the
   query is true. *)
Theorem C68_truth : exists P, load repo_text = Some P /\
  forall m t q N E n, (0 < Dim m)%nat -> (has_all q = true -> is_dtree m t) -> fo_query m t q -> tidy N (Dim m) q ->
  valid_env (Dim m) E -> (new_fuel m q <= n)%nat ->
  exists f h, run_encoding P n m q = (Ok [v_cnf f; VNil], h)
    /\ ((exists r, Models r f = true) <-> trueFO (Dim m) t E [] q).
Proof. exists prog. split; [exact load_repo|]. exact C64_first_order. Qed.
Print Assumptions C68_truth.

(* Combinators of queries are answered. *)
Theorem C68_sat : exists P, load repo_text = Some P /\
  forall o path m t k N n, right_os o path -> new_names o -> (0 < Dim m)%nat ->
  Forall (fun q => (has_all q = true -> is_dtree m t) /\ wf_query m t q /\ tidy N (Dim m) q) (queries k) ->
  ForallOrdPairs (fun q q' => forall v, In v (all_vars q) -> ~ In v (all_vars q')) (queries k) ->
  (forall r s' c', CombSat (env_steps o path) k (mkSolver "" 0) (BasicQContext m) = (r, s', c') -> vm_topv (cVM c') < 2 ^ 63) ->
  (Dim m + 3 * length (Nodes m) + 3 * cheight k + cdepth k + 10 <= n)%nat ->
  exists b h, run_sat P n m o path k = (Ok [VBool b; VNil], h) /\ (b = true <-> comb_true (Dim m) t k) /\ end_files h = o_files o.
Proof. exists prog. split; [exact load_repo|]. exact C66_sat. Qed.
Print Assumptions C68_sat.

(* Optimal values are found. *)
Theorem C68_optimum : exists P, load repo_text = Some P /\
  forall o path m t N fg og v H n, right_os o path -> new_names o -> problem m t N fg og v ->
  (qheight (fg v) <= H)%nat -> (forall k, (qheight (og v k) <= H)%nat) ->
  let ok := satisfies (Dim m) t v (fg v) in
  let lt e' e := satisfies (Dim m) t v (og v (mkQConst "" e)) e' in
  (forall e, ok e -> ~ lt e e) -> (forall e1 e2 e3, ok e1 -> ok e2 -> ok e3 -> lt e1 e2 -> lt e2 e3 -> lt e1 e3) ->
  (3 ^ Dim m + Dim m + 3 * length (Nodes m) + 3 * H + 15 < n)%nat ->
  exists x h, run_optim P n m o path fg og v = (Ok [v_opt x; VNil], h) /\ end_files h = o_files o /\
    if oFound x then ok (cVal (oValue x)) /\ forall e, ok e -> ~ lt e (cVal (oValue x)) else forall e, ~ ok e.
Proof. exists prog. split; [exact load_repo|]. exact C66_optimum. Qed.
Print Assumptions C68_optimum.

(* The two example programs print what they should. *)
Theorem C68_examples : exists P, load repo_text = Some P /\
  forall o n, right_os o the_path -> new_names o -> (80 <= n)%nat ->
  let p := run_main P n "main.ComputationExample" 2 o in
  let p' := run_main P n "main.EvaluationExample" 2 o in
  (fst p = Ok tt /\ printed (snd p) = (o_out o ++ "Value found: [0 _ _]" ++ newline)%string /\ end_files (snd p) = o_files o) /\
  (fst p' = Ok tt /\ printed (snd p') = (o_out o ++ "true" ++ newline)%string /\ end_files (snd p') = o_files o).
Proof.
  exists prog. split; [exact load_repo|]. intros o n R NN Hn p p'.
  pose proof (C67_computation o n R NN ltac:(lia)) as (A1 & A2 & A3 & _).
  pose proof (C67_evaluation o n R NN Hn) as (B1 & B2 & B3 & _). subst p p'. auto 10.
Qed.
Print Assumptions C68_examples.

(* ---- concrete cases ---- *)

(* Two small files: precedence, semicolons at the ends of lines, comments, constants
   that count, a method, a variadic function, a literal with fields left out, a
   variable whose address is taken, a switch; and the result of running them. *)
Definition file1 : string := lines
  ["// Package zoo."; "package zoo"; ""; "type Cat struct {"; "	Name string"; "	legs, lives int"; "	toys []string"; "}"; "";
   "const ("; "	NONE int = iota"; "	ONE"; "	TWO"; ")"; "";
   "func (c Cat) Sum(k int) int {"; "	return c.legs + c.lives*k - (1 - k) // not (c.legs + c.lives) * k"; "}"; "";
   "func count(xs ...int) int {"; "	n := 0"; "	for range xs {"; "		n++"; "	}"; "	return n"; "}"; "";
   "func bump(p *int) { *p += TWO }"; "";
   "func Run(k int) (string, int) {"; "	c := Cat{"; "		legs: 4,"; "		lives: 9,"; "	}"; "	var x int"; "	bump(&x)";
   "	switch k {"; "	case 0, ONE:"; "		return ""few""+c.Name, c.Sum(k)"; "	case 2:"; "		x += len(c.toys)"; "	default:";
   "		x = count(k, x, -1)"; "	}"; "	return ""many\n"", x"; "}"].
Definition zoo (k : Z) : option (res (list val)) :=
  option_map (fun P => fst (call_func P 20 "zoo.Run" [VInt k] [])) (load [("zoo.go", file1)]).
Example C68_zoo_case :
  zoo 1 = Some (Ok [VStr "few"; VInt 13]) /\ zoo 2 = Some (Ok [VStr ("many" ++ newline); VInt 2]) /\ zoo 3 = Some (Ok [VStr ("many" ++ newline); VInt 3]).
Proof. vm_compute. repeat split. Qed.
(* what is not covered is not translated: channels, an undeclared name, a brace that is not closed *)
Example C68_refused_case : forall body, In body ["	c <- x"; "	y = 1"; "	if x == y {"; "	x := 'a'"; "	x := 7 & 3"; "	break outer"] ->
  load [("a.go", lines ["package a"; ""; "func F(x int) {"; body; "}"])] = None.
Proof. intros body H. cbn [In] in H. repeat (destruct H as [<-|H]; [vm_compute; reflexivity|]). destruct H. Qed.
(* the files are not trivial, and a changed byte is seen *)
Example C68_text_case : length repo_text = 64%nat /\ length source = 118%nat /\
  load (map (fun f => (fst f, lines ["package a"])) repo_text) = Some (mkProgram [] [] []).
Proof. vm_compute. repeat split. Qed.
