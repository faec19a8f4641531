(* The text of query/predicates against the model. *)
From Verif Require Import GoBase GoLemmas Cnf Query Walk Atoms Logop GoLang GoSource SrcBase SrcLemmas SrcCnf SrcQuery SrcCtx Size.
Local Open Scope string_scope.
Local Open Scope Z_scope.
Local Open Scope list_scope.

(* A call of Encoding, against the outcome of the model: the formula and the
   context afterwards; the error, with an empty formula; a panic; an endless loop. *)
Definition says (g : heap) (p : res (list val) * heap) (r : res CNF * ctx) : Prop :=
  match r with
  | (Ok f, c) => p = (Ok [v_cnf f; VNil], v_ctx c :: g)
  | (Err e, c) => p = (Ok [v_cnf TrueCNF; VErr e []], v_ctx c :: g)
  | (Panic, _) => fst p = Panic
  | (Hang, _) => fst p = Hang
  end.

Lemma sget_cases {A} (l : list A) i : (exists x, sget l i = Ok x) \/ sget l i = Panic.
Proof.
  unfold sget. destruct (i <? 0); [now right|]. destruct (nth_error l _); [left; eauto | now right].
Qed.
Lemma ScopeVar_cases s v : (exists w, ScopeVar s v = Ok w) \/ ScopeVar s v = Panic.
Proof.
  unfold ScopeVar. destruct (length (scopes s) =? 0)%nat; [eauto|].
  generalize (match slookup (svars s) v with Some n => n | None => 0%nat end) as k.
  intros k. generalize 0%nat as i. generalize v as b. induction k as [|k IH]; intros b i; [left; now exists b|].
  cbn [seq fold_left]. destruct (sget_cases (scopes s) (Z.of_nat i)) as [(x & E)|E]; rewrite E; [apply IH|].
  right. generalize (Datatypes.S i) as j. clear. induction k as [|k IH]; intros j; [reflexivity|]. cbn. apply IH.
Qed.

Lemma says_from s M g vm cls X :
  alloc_clauses vm cls = X ->
  says g (Ok [v_cnf (FromClauses (fst X)); VNil], hc s M g (snd X))
    (let (f, vm') := run_emits vm [EFrom cls] in (Ok f, set_vm (mkCtx s vm M) vm')).
Proof. intros <-. unfold run_emits. cbn. now destruct (alloc_clauses vm cls). Qed.
Lemma says_emits s M g vm es X :
  run_emits vm es = X ->
  says g (Ok [v_cnf (fst X); VNil], hc s M g (snd X))
    (let (f, vm') := run_emits vm es in (Ok f, set_vm (mkCtx s vm M) vm')).
Proof. intros <-. now destruct (run_emits vm es). Qed.

Section Valid.
  Variables (n : nat) (h : heap) (d : nat).
  Lemma go_Valid1 c e :
    (1 <= n)%nat -> ValidateConstsDim d [c] = e ->
    gocall n "query.ValidateConstsDim" [VInt (Z.of_nat d); VLst [v_const c]] h = (Ok [v_err e], h).
  Proof. intros Hn <-. exact (go_ValidateConstsDim n h d [c] Hn). Qed.
  Lemma go_Valid2 c1 c2 e :
    (1 <= n)%nat -> ValidateConstsDim d [c1; c2] = e ->
    gocall n "query.ValidateConstsDim" [VInt (Z.of_nat d); VLst [v_const c1; v_const c2]] h = (Ok [v_err e], h).
  Proof. intros Hn <-. exact (go_ValidateConstsDim n h d [c1; c2] Hn). Qed.
  Lemma go_Valid3 c1 c2 c3 e :
    (1 <= n)%nat -> ValidateConstsDim d [c1; c2; c3] = e ->
    gocall n "query.ValidateConstsDim" [VInt (Z.of_nat d); VLst [v_const c1; v_const c2; v_const c3]] h
    = (Ok [v_err e], h).
  Proof. intros Hn <-. exact (go_ValidateConstsDim n h d [c1; c2; c3] Hn). Qed.
End Valid.
Global Hint Resolve go_Valid1 go_Valid2 go_Valid3 : gocall.

Lemma valid_lens d l c : ValidateConstsDim d l = None -> In c l -> length (cVal c) = d.
Proof.
  intros H Hc. apply validate_lens in H. rewrite Forall_forall in H. now apply H.
Qed.

(* Entering an Encoding method. *)
Ltac enter fn :=
  unfold enc_atom; cbn [atom_enc cScoper cModel cVM need];
  cbn [v_atom v_gen1 v_gen2 v_gen3]; func fn.
(* To the next statement. *)
Ltac stp :=
  st1; repeat lazymatch goal with
  | |- context [plug _ _ (run_block _ None (_ :: _) _)] => fail
  | _ => st1
  end.
(* A constant read, from here on by the name k. *)
Ltac const c k :=
  lazymatch goal with |- context [hc ?s _ _ _] => stp; set (k := fst (ScopeConst s c)) in *; clearbody k end.
(* A read of a variable's name; ends the branch where it panics. *)
Ltac scopevar v w :=
  let E := fresh "E" in
  match goal with |- context [hc ?s _ _ _] =>
    destruct (ScopeVar_cases s v) as [(w & E)|E]; rewrite ?E;
    [ | erewrite plug_panic;
        [ | eapply ex_assign_panic; eapply ev_meth;
            [ev | evs | eapply xm_ScopeVar_panic; [lia | rewrite E; discriminate]] ];
        sts; reflexivity ]
  end.

Lemma fst_fold {A B E} (f : A -> B -> B) (h : A -> E) l b e :
  fst (fold_left (fun s i => (f i (fst s), h i)) l (b, e)) = fold_left (fun p i => f i p) l b.
Proof. revert b e. induction l as [|a l IH]; intros b e; [reflexivity|]. cbn [fold_left fst]. apply IH. Qed.

(* A search through two slices at once. *)
Lemma rfind_two {B} (b : Z -> Z -> bool) (t : Z * Z -> bool) (r : B) (l1 l2 : list FeatV) :
  length l1 = length l2 -> (forall x y, t (x, y) = negb (b x y)) ->
  rfind (fun i ft => if b ft (vget l2 i) then Some r else None) 0 l1
  = if forallb t (combine l1 l2) then None else Some r.
Proof.
  intros Hl Ht.
  assert (E : forall l1 l2 pre, length l1 = length l2 ->
    rfind (fun i ft => if b ft (vget (pre ++ l2) i) then Some r else None) (Z.of_nat (length pre)) l1
    = if forallb t (combine l1 l2) then None else Some r).
  { clear l1 l2 Hl. induction l1 as [|x m IH]; intros [|y m'] pre Hl; try discriminate; [reflexivity|].
    cbn [rfind combine forallb fst snd]. rewrite Ht.
    assert (Ey : vget (pre ++ y :: m') (Z.of_nat (length pre)) = y)
      by (unfold vget; rewrite Nat2Z.id; apply nth_middle).
    rewrite Ey. destruct (b x y); cbn [negb andb]; [reflexivity|].
    specialize (IH m' (pre ++ [y])). rewrite app_length, <- app_assoc in IH. cbn [length app] in IH.
    replace (Z.of_nat (length pre) + 1) with (Z.of_nat (length pre + 1)) by lia.
    apply IH. now injection Hl. }
  exact (E l1 l2 [] Hl).
Qed.
(* for i, a := range l whose turns may return *)
Ltac find_idx f :=
  let i := fresh "i" in let a := fresh "a" in let Hi := fresh "Hi" in let Hn := fresh "Hn" in
  erewrite plug_exec; [ | eapply (ex_range_find _ f); [ev | intros i a Hi Hn; red_env] ].

Section Atoms.
Variables (s : scoper) (M : model) (g : heap) (vm : varman).
Notation ENC n f a := (gocall n f [v_atom a; VPtr 0] (hc s M g vm)).
Notation C := (mkCtx s vm M).
Notation HC := (hc s M g).
Notation CL x := (fun p : list clause * varman => [(x%string, v_clauses (fst p))]).
Notation NC x := (fun p : CNF * varman => [(x%string, v_cnf (fst p))]).
Notation HL := (fun p : list clause * varman => HC (snd p)).
Notation HN := (fun p : CNF * varman => HC (snd p)).

Lemma go_SubsVV n v1 v2 :
  (levels s + 4 <= n)%nat -> (Dim M + 2 <= n)%nat ->
  says g (ENC n "subsumption.VarVar.Encoding" (SubsVV v1 v2)) (enc_atom (SubsVV v1 v2) C).
Proof.
  enter src_subsumption_VarVar_Encoding. st1. sts.
  scopevar v1 w1. st1. scopevar v2 w2. st1. st1.
  for_new "i" (CL "clauses") HL (fun i => addp [[Ln w1 i ONE; Lp w2 i ONE]; [Ln w1 i ZERO; Lp w2 i ZERO]])
    from (@nil clause, vm) to (Z.of_nat (Dim M)).
  - sts. apply says_from. now rewrite addp_fold, addp_start.
  - sts. endbody.
Qed.
Lemma go_SubsVC n v c :
  (levels s + 4 <= n)%nat -> (Dim M + 2 <= n)%nat ->
  says g (ENC n "subsumption.VarConst.Encoding" (SubsVC v c)) (enc_atom (SubsVC v c) C).
Proof.
  enter src_subsumption_VarConst_Encoding. stp. scopevar v w. stp. const c k.
  destruct (ValidateConstsDim (Dim M) [k]) as [e|] eqn:V; sts; [reflexivity|].
  range_idx (CL "clauses") HL
    (fun i ft => addp (if ft =? ONE then [[Ln w i ZERO]] else if ft =? ZERO then [[Ln w i ONE]]
                       else [[Ln w i ONE]; [Ln w i ZERO]])) from (@nil clause, vm).
  - sts. apply says_from. now rewrite addp_ifold, addp_start.
  - unfold ONE, ZERO. sts. destruct (a =? 2); [sts; endbody|]. sts.
    destruct (a =? 1); sts; endbody.
Qed.
Lemma go_SubsCV n c v :
  (levels s + 4 <= n)%nat -> (Dim M + 2 <= n)%nat ->
  says g (ENC n "subsumption.ConstVar.Encoding" (SubsCV c v)) (enc_atom (SubsCV c v) C).
Proof.
  enter src_subsumption_ConstVar_Encoding. stp. scopevar v w. stp. const c k.
  destruct (ValidateConstsDim (Dim M) [k]) as [e|] eqn:V; sts; [reflexivity|].
  range_idx (CL "clauses") HL
    (fun i ft => addp (if negb (ft =? BOT) then [[Lp w i ft]] else [])) from (@nil clause, vm).
  - sts. apply says_from. now rewrite addp_ifold, addp_start.
  - unfold BOT. st1. destruct (a =? 0); cbn [negb].
    + rewrite addp_nil. sts. endbody.
    + sts. endbody.
Qed.
Lemma go_SubsCC n c1 c2 :
  (levels s + 4 <= n)%nat -> (Dim M + 2 <= n)%nat ->
  says g (ENC n "subsumption.ConstConst.Encoding" (SubsCC c1 c2)) (enc_atom (SubsCC c1 c2) C).
Proof.
  enter src_subsumption_ConstConst_Encoding. stp. const c1 k1. const c2 k2.
  destruct (ValidateConstsDim (Dim M) [k1; k2]) as [e|] eqn:V; sts; [reflexivity|].
  pose proof (valid_lens _ _ k1 V ltac:(now left)) as L1. pose proof (valid_lens _ _ k2 V ltac:(now (right; left))) as L2.
  find_idx (fun i (ft : FeatV) => if negb (ft =? BOT) && negb (ft =? vget (cVal k2) i)
                         then Some [v_cnf FalseCNF; VNil] else None).
  - rewrite (rfind_two (fun x y => negb (x =? BOT) && negb (x =? y))
      (fun p => (fst p =? BOT) || (fst p =? snd p))).
    + unfold guard, subs_cc. destruct (forallb _ _); sts; reflexivity.
    + congruence.
    + intros x y. now rewrite Bool.negb_andb, !Bool.negb_involutive.
  - assert (Hl : (Z.to_nat i < length (cVal k1))%nat) by (apply nth_error_Some; congruence).
    unfold BOT. st1. destruct (a =? 0); cbn [negb andb]; [sts; reflexivity|]. 
    destruct (a =? vget (cVal k2) i); sts; reflexivity.
Qed.

(* clauses and a loop variable of a loop inside *)
Notation US := (fun p : (list clause * varman) * Z => [("clauses"%string, v_clauses (fst (fst p))); ("j"%string, VInt (snd p))]).
Notation HS := (fun p : (list clause * varman) * Z => HC (snd (fst p))).
Notation INNER f h := (fun i (p : (list clause * varman) * Z) => (addp (f i) (fst p), h i)).
Lemma go_varBotCountClauses n vm0 v cv :
  (4 <= n)%nat -> (Dim M + 3 <= n)%nat ->
  gocall n "lel.varBotCountClauses" [VStr v; VStr cv; VPtr 0] (HC vm0)
  = (Ok [v_clauses (fst (alloc_clauses vm0 (varBotCountClauses (Z.of_nat (Dim M)) v cv)))],
     HC (snd (alloc_clauses vm0 (varBotCountClauses (Z.of_nat (Dim M)) v cv)))).
Proof.
  func src_lel_varBotCountClauses. sts.
  for_old "i" US HS (INNER (count_row v cv) (fun i => Z.max 1 (i + 2)))
    from ((@nil clause, vm0), 0) to (Z.of_nat (Dim M)).
  2:{ st1.
      for_old "j" (CL "clauses") HL
        (fun j => addp
           [[Ln cv i j; Lp cv (i - 1) (j - 1); Ln v i BOT];
            [Lp cv i j; Ln cv (i - 1) (j - 1); Ln v i BOT];
            [Ln cv i j; Lp cv (i - 1) j; Lp v i BOT];
            [Lp cv i j; Ln cv (i - 1) j; Lp v i BOT]])
        from (addp [[Ln cv i 0; Ln v i BOT]; [Ln cv i 0; Lp cv (i - 1) 0];
                    [Ln cv (i - 1) 0; Lp v i BOT; Lp cv i 0]] (fst s0)) to (i + 2).
      - sts. rewrite addp_fold, <- addp_app. endbody.
      - sts. endbody. }
  rewrite (fst_fold (fun i => addp (count_row v cv i))), addp_fold.
  set (p := addp _ _). match goal with |- context [("j"%string, VInt ?x)] => generalize x as j end.
  intros j. set (d := Z.of_nat (Dim M)).
  for_old "i" US HS (INNER (fun i => map (fun j => [Ln cv i j]) (zrange (i + 2) (d + 1)))
                     (fun i => Z.max (i + 2) (d + 1))) from (p, j) to d.
  2:{ for_old "j" (CL "clauses") HL (fun j => addp [[Ln cv i j]]) from (fst s0) to (d + 1).
      - sts. rewrite addp_map. endbody.
      - sts. endbody. }
  rewrite (fst_fold (fun i => addp (map (fun j => [Ln cv i j]) (zrange (i + 2) (d + 1))))), addp_fold.
  sts. unfold p. rewrite <- (addp_start (varBotCountClauses d v cv) vm0). unfold varBotCountClauses, no_excess. rewrite !addp_app. reflexivity.
Qed.
Hint Resolve go_varBotCountClauses : gocall.

Lemma go_LelCC n c1 c2 :
  (levels s + 4 <= n)%nat -> (Dim M + 2 <= n)%nat ->
  says g (ENC n "lel.ConstConst.Encoding" (LelCC c1 c2)) (enc_atom (LelCC c1 c2) C).
Proof.
  enter src_lel_ConstConst_Encoding. stp. const c1 k1. const c2 k2.
  destruct (ValidateConstsDim (Dim M) [k1; k2]) as [e|] eqn:V; sts; [reflexivity|].
  unfold guard. destruct (BotCount k1 <? BotCount k2); sts; reflexivity.
Qed.
Lemma go_LelVC n v c k :
  (levels s + 5 <= n)%nat -> (Dim M + 4 <= n)%nat ->
  says g (ENC n "lel.VarConst.Encoding" (LelVC v c k)) (enc_atom (LelVC v c k) C).
Proof.
  destruct k as [gen|].
  2:{ enter src_lel_VarConst_Encoding. sts. reflexivity. }
  enter src_lel_VarConst_Encoding. stp. stp. scopevar v w. stp. const c k. stp.
  destruct (ValidateConstsDim (Dim M) [k]) as [e|] eqn:V; sts; [reflexivity|].
  pose proof (valid_lens _ _ k V ltac:(now left)) as L. pose proof (BotCount_le k) as B.
  for_new "i" (NC "ncnf") HN (fun i => emitp (ESem [[Ln (gen w) (Z.of_nat (Dim M) - 1) i]]))
    from (emitp (ECons (varBotCountClauses (Z.of_nat (Dim M)) w (gen w))) (TrueCNF, vm)) to (BotCount k).
  - sts. apply says_emits. rewrite emit_map. symmetry. unfold lel_vc_sem. rewrite map_map.
    apply (emitsp_start (ECons _ :: _)).
  - sts. endbody.
Qed.
Lemma go_LelCV n c v k :
  (levels s + 5 <= n)%nat -> (Dim M + 4 <= n)%nat ->
  says g (ENC n "lel.ConstVar.Encoding" (LelCV c v k)) (enc_atom (LelCV c v k) C).
Proof.
  destruct k as [gen|].
  2:{ enter src_lel_ConstVar_Encoding. sts. reflexivity. }
  enter src_lel_ConstVar_Encoding. stp. stp. scopevar v w. stp. const c k. stp.
  destruct (ValidateConstsDim (Dim M) [k]) as [e|] eqn:V; sts; [reflexivity|].
  pose proof (BotCount_le k) as B.
  for_new "i" (NC "ncnf") HN (fun i => emitp (ESem [[Ln (gen w) (Z.of_nat (Dim M) - 1) i]]))
    from (emitp (ECons (varBotCountClauses (Z.of_nat (Dim M)) w (gen w))) (TrueCNF, vm)) to (Z.of_nat (Dim M) + 1).
  - sts. apply says_emits. rewrite emit_map. symmetry. unfold lel_cv_sem. rewrite map_map.
    apply (emitsp_start (ECons _ :: _)).
  - sts. endbody.
Qed.
Lemma go_LelVV n v1 v2 k :
  (levels s + 5 <= n)%nat -> (Dim M + 4 <= n)%nat ->
  says g (ENC n "lel.VarVar.Encoding" (LelVV v1 v2 k)) (enc_atom (LelVV v1 v2 k) C).
Proof.
  destruct k as [gen|].
  2:{ enter src_lel_VarVar_Encoding. sts. reflexivity. }
  enter src_lel_VarVar_Encoding. stp. stp. scopevar v1 w1. stp. scopevar v2 w2. sts.
  set (d := Z.of_nat (Dim M)).
  set (row := fun i => Ln (gen w1) (d - 1) i :: map (fun j => Lp (gen w2) (d - 1) j) (zrange 0 (i + 1))).
  for_old "i" (fun p : (CNF * varman) * Z => [("ncnf"%string, v_cnf (fst (fst p))); ("j"%string, VInt (snd p))])
    (fun p : (CNF * varman) * Z => HC (snd (fst p)))
    (fun i (p : (CNF * varman) * Z) => (emitp (ESem [row i]) (fst p), Z.max 0 (i + 1)))
    from (emitp (ECons (varBotCountClauses d w2 (gen w2)))
           (emitp (ECons (varBotCountClauses d w1 (gen w1))) (TrueCNF, vm)), 0) to d.
  - rewrite (fst_fold (fun i => emitp (ESem [row i]))), emit_map. sts. apply says_emits.
    symmetry. unfold lel_vv_sem. rewrite map_map. apply (emitsp_start (ECons _ :: ECons _ :: _)).
  - stp.
    for_old "j" (fun p : clause * varman => [("cl"%string, v_clause (fst p))])
      (fun p : clause * varman => HC (snd p)) (fun j => addl [Lp (gen w2) (d - 1) j])
      from (addl [Ln (gen w1) (d - 1) i] ([], snd (fst s0))) to (i + 1).
    + rewrite addl_map, <- (addl_app [_]), addl_start. sts. rewrite emitp_sem1. endbody.
    + sts. endbody.
Qed.
End Atoms.
