(* The text of query/extensions/leh against the model. *)
From Verif Require Import GoBase GoLemmas Cnf Query Walk Atoms Logop GoLang GoSource SrcBase SrcLemmas SrcCnf SrcQuery SrcCtx SrcPred SrcNode SrcExt SrcDfs SrcHepr Size Errors.
Local Open Scope string_scope.
Local Open Scope Z_scope.
Local Open Scope list_scope.

(* leh/utils.go:12-30 *)
Lemma hd_ifold l1 l2 : length l1 = length l2 ->
  ifold (fun i ft hd => if ft =? vget l2 i then hd else hd + 1) 0 l1 0 = hammingDistCC l1 l2.
Proof.
  intros Hl.
  assert (E : forall m1 m2 pre hd, length m1 = length m2 -> l2 = pre ++ m2 ->
    ifold (fun i ft hd => if ft =? vget l2 i then hd else hd + 1) (Z.of_nat (length pre)) m1 hd
    = fold_left (fun hd p => if negb (fst p =? snd p) then hd + 1 else hd) (combine m1 m2) hd).
  { induction m1 as [|x m1 IH]; intros [|y m2] pre hd Hm El; try discriminate; [reflexivity|].
    cbn [ifold combine fold_left fst snd].
    assert (Y : vget l2 (Z.of_nat (length pre)) = y) by (unfold vget; rewrite Nat2Z.id, El; apply nth_middle).
    rewrite Y. specialize (IH m2 (pre ++ [y])). rewrite app_length in IH. cbn [length] in IH.
    replace (Z.of_nat (length pre) + 1) with (Z.of_nat (length pre + 1)) by lia.
    rewrite IH; [|now injection Hm | now rewrite <- app_assoc]. now destruct (x =? y). }
  exact (E l1 l2 [] 0 Hl eq_refl).
Qed.
Lemma go_hammingDistCC n h c1 c2 :
  (1 <= n)%nat -> length (cVal c1) = length (cVal c2) ->
  gocall n "leh.hammingDistCC" [v_const c1; v_const c2] h
  = (Ok [VInt (hammingDistCC (cVal c1) (cVal c2)); VNil], h).
Proof.
  func src_leh_hammingDistCC.
  stp. rewrite H0, Z.eqb_refl. cbv iota. stp. stp.
  range_idx (fun z => [("hd"%string, VInt z)]) (fun _ : Z => h) (fun i ft hd => if ft =? vget (cVal c2) i then hd else hd + 1) from 0.
  - rewrite hd_ifold by exact H0. sts. reflexivity.
  - assert (Hl : (Z.to_nat i < length (cVal c1))%nat) by (apply nth_error_Some; congruence).
    destruct (a =? vget (cVal c2) i) eqn:E; stp; rewrite E; cbv iota; sts; endbody.
Qed.
Global Hint Resolve go_hammingDistCC : gocall.

Lemma ev_lst_panic n es st st1 : x_map (EV n) es st = (Panic, st1) -> EV n (XLst es) st = (Panic, st1).
Proof. intros H. cbn [eval]. unfold xbind. now rewrite H. Qed.
Lemma ev_app_args_panic n e es st st1 st2 v :
  EV n e st = (Ok v, st1) -> x_map (EV n) es st1 = (Panic, st2) -> EV n (XApp e es) st = (Panic, st2).
Proof. intros H1 H2. cbn [eval]. unfold xbind. rewrite H1. now rewrite H2. Qed.

(* ---- what is known stays known ---- *)

Lemma keeps_vars u m l : forall vm,
  vlookup (vm_vars vm) u = Some m -> vlookup (vm_vars (alloc_vars vm l)) u = Some m.
Proof. induction l as [|t l IH]; intros vm H; [exact H|]. cbn. apply IH. now apply keeps. Qed.
Lemma knowns_keep_vars cls F l : forall vm,
  Forall2 (known vm) cls F -> Forall2 (known (alloc_vars vm l)) cls F.
Proof. induction l as [|t l IH]; intros vm H; [exact H|]. cbn. apply IH. now apply knowns_keep. Qed.
Lemma alloc_clause_vars cl : forall vm, snd (alloc_clause vm cl) = alloc_vars vm (map snd cl).
Proof.
  induction cl as [|[b t] cl IH]; intros vm; [reflexivity|]. cbn [alloc_clause map alloc_vars snd].
  rewrite <- IH. destruct (CNFVar vm t) as [k vm1]. cbn [fst snd]. now destruct (alloc_clause vm1 cl).
Qed.
Lemma alloc_clauses_vars cls : forall vm, snd (alloc_clauses vm cls) = alloc_vars vm (clause_vars cls).
Proof.
  induction cls as [|cl cls IH]; intros vm; [reflexivity|]. unfold clause_vars in *. cbn [alloc_clauses concat].
  rewrite map_app, alloc_vars_app, <- (alloc_clause_vars cl), <- IH.
  destruct (alloc_clause vm cl) as [k vm1]. cbn [fst snd]. now destruct (alloc_clauses vm1 cls).
Qed.
Lemma clause_known cl : forall vm, known (snd (alloc_clause vm cl)) cl (fst (alloc_clause vm cl)).
Proof.
  induction cl as [|[b t] cl IH]; intros vm; [constructor|]. cbn [alloc_clause].
  pose proof (finds vm t) as Ef. pose proof (alloc_clause_vars cl (snd (CNFVar vm t))) as Ev.
  specialize (IH (snd (CNFVar vm t))). destruct (CNFVar vm t) as [k vm1]. cbn [fst snd] in *.
  destruct (alloc_clause vm1 cl) as [c vm2]. cbn [fst snd] in *. subst vm2.
  constructor; [|exact IH]. exists k. split; [now apply keeps_vars | now destruct b].
Qed.
Lemma clauses_known cls : forall vm, Forall2 (known (snd (alloc_clauses vm cls))) cls (fst (alloc_clauses vm cls)).
Proof.
  induction cls as [|cl cls IH]; intros vm; [constructor|]. cbn [alloc_clauses].
  pose proof (clause_known cl vm) as K. specialize (IH (snd (alloc_clause vm cl))).
  pose proof (alloc_clauses_vars cls (snd (alloc_clause vm cl))) as Ev.
  destruct (alloc_clause vm cl) as [k vm1]. cbn [fst snd] in *.
  destruct (alloc_clauses vm1 cls) as [F vm2]. cbn [fst snd] in *. subst vm2.
  constructor; [|exact IH].
  pose proof (knowns_keep_vars [cl] [k] (clause_vars cls) vm1 (Forall2_cons _ _ K (Forall2_nil _))) as X.
  now inversion X.
Qed.
(* Clauses numbered before others and appended after them. *)
Lemma cons_late cls l vm :
  alloc_clauses (alloc_vars (snd (alloc_clauses vm cls)) l) cls
  = (fst (alloc_clauses vm cls), alloc_vars (snd (alloc_clauses vm cls)) l).
Proof. apply known_allocs, knowns_keep_vars, clauses_known. Qed.

Section Leh.
Variables (s : scoper) (M : model) (g : heap) (vm : varman).
Notation ENC n f a := (gocall n f [v_atom a; VPtr 0] (hc s M g vm)).
Notation C := (mkCtx s vm M).
Notation HC := (hc s M g).
Notation CL x := (fun p : list clause * varman => [(x%string, v_clauses (fst p))]).
Notation NC x := (fun p : CNF * varman => [(x%string, v_cnf (fst p))]).
Notation HL := (fun p : list clause * varman => HC (snd p)).
Notation HN := (fun p : CNF * varman => HC (snd p)).
Notation d := (Z.of_nat (Dim M)).

(* leh/utils.go:180-191 *)
Lemma go_varFullClauses n vm0 v :
  (4 <= n)%nat -> (Dim M + 2 <= n)%nat ->
  gocall n "leh.varFullClauses" [VStr v; VPtr 0] (HC vm0)
  = (Ok [v_clauses (fst (alloc_clauses vm0 (full_v d v)))], HC (snd (alloc_clauses vm0 (full_v d v)))).
Proof.
  func src_leh_varFullClauses. stp.
  for_new "i" (CL "clauses") HL (fun i => addp [[Ln v i BOT]]) from (@nil clause, vm0) to d.
  - rewrite addp_map, addp_start. sts. reflexivity.
  - sts. endbody.
Qed.
(* leh/utils.go:197-230 *)
Lemma go_fullVarEqualClauses n vm0 v1 v2 ef :
  (4 <= n)%nat -> (Dim M + 2 <= n)%nat ->
  gocall n "leh.fullVarEqualClauses" [VStr v1; VStr v2; VStr ef; VPtr 0] (HC vm0)
  = (Ok [v_clauses (fst (alloc_clauses vm0 (fullVarEqualClauses d v1 v2 ef)))],
     HC (snd (alloc_clauses vm0 (fullVarEqualClauses d v1 v2 ef)))).
Proof.
  func src_leh_fullVarEqualClauses. stp. unfold fullVarEqualClauses.
  match goal with |- context [flat_map ?f _] => set (row := f) end.
  for_new "i" (CL "clauses") HL (fun i => addp (row i)) from (@nil clause, vm0) to d.
  - rewrite addp_fold, addp_start. sts. reflexivity.
  - sts. endbody.
Qed.
(* leh/utils.go:113-176 *)
Lemma go_hammingDistVV n vm0 hd ef :
  (4 <= n)%nat -> (Dim M + 3 <= n)%nat ->
  gocall n "leh.hammingDistVV" [VStr hd; VStr ef; VPtr 0] (HC vm0)
  = (Ok [v_clauses (fst (alloc_clauses vm0 (hammingDistVV d hd ef)))],
     HC (snd (alloc_clauses vm0 (hammingDistVV d hd ef)))).
Proof.
  func src_leh_hammingDistVV. stp. stp. change (VLst []) with (v_clauses []). stp. unfold hammingDistVV. cbv zeta.
  set (e := fun i => Lp ef i 0). set (ne := fun i => Ln ef i 0).
  for_new "i" (CL "clauses") HL (fun i => addp (hd_row hd e ne i))
    from (addp (hd_first hd e ne) (@nil clause, vm0)) to d.
  2:{ stp.
      for_new "j" (CL "clauses") HL
        (fun j => addp
          [[Ln hd i j; Lp hd (i - 1) (j - 1); e i];
           [Ln hd i j; Lp hd (i - 1) j; ne i];
           [Lp hd i j; Ln hd (i - 1) (j - 1); e i];
           [Lp hd i j; Ln hd (i - 1) j; ne i]])
        from (addp [[Ln hd i 0; Lp hd (i - 1) 0]; [Ln hd i 0; e i];
                    [Ln hd (i - 1) 0; ne i; Lp hd i 0]] s0) to (i + 2).
      - sts. rewrite addp_fold, <- addp_app. endbody.
      - sts. endbody. }
  rewrite addp_fold.
  set (p := addp _ (addp _ _)).
  for_new "i" (CL "clauses") HL (fun i => addp (map (fun j => [Ln hd i j]) (zrange (i + 2) (d + 1)))) from p to d.
  2:{ for_new "j" (CL "clauses") HL (fun j => addp [[Ln hd i j]]) from s0 to (d + 1).
      - sts. rewrite addp_map. endbody.
      - sts. endbody. }
  rewrite addp_fold. sts. unfold p. rewrite <- !addp_app, addp_start. unfold no_excess. reflexivity.
Qed.
(* leh/utils.go:35-107 *)
Lemma go_hammingDistVC n vm0 v c hd :
  (4 <= n)%nat -> (Dim M + 3 <= n)%nat ->
  ValidateConstsDim (Dim M) [c] = None -> length (cVal c) = Dim M -> (0 < Dim M)%nat ->
  gocall n "leh.hammingDistVC" [VStr v; v_const c; VStr hd; VPtr 0] (HC vm0)
  = (Ok [v_clauses (fst (alloc_clauses vm0 (hammingDistVC d v (cVal c) hd))); VNil],
     HC (snd (alloc_clauses vm0 (hammingDistVC d v (cVal c) hd)))).
Proof.
  func src_leh_hammingDistVC. stp. stp. change (VLst []) with (v_clauses []). stp. stp.
  unfold hammingDistVC. cbv zeta.
  set (e := fun i => Lp v i (vget (cVal c) i)). set (ne := fun i => Ln v i (vget (cVal c) i)).
  for_new "i" (CL "clauses") HL (fun i => addp (hd_row hd e ne i))
    from (addp (hd_first hd e ne) (@nil clause, vm0)) to d.
  2:{ stp.
      for_new "j" (CL "clauses") HL
        (fun j => addp
          [[Ln hd i j; Lp hd (i - 1) (j - 1); e i];
           [Ln hd i j; Lp hd (i - 1) j; ne i];
           [Lp hd i j; Ln hd (i - 1) (j - 1); e i];
           [Lp hd i j; Ln hd (i - 1) j; ne i]])
        from (addp [[Ln hd i 0; Lp hd (i - 1) 0]; [Ln hd i 0; e i];
                    [Ln hd (i - 1) 0; ne i; Lp hd i 0]] s0) to (i + 2).
      - sts. rewrite addp_fold, <- addp_app. endbody.
      - sts. endbody. }
  rewrite addp_fold.
  set (p := addp _ (addp _ _)).
  for_new "i" (CL "clauses") HL (fun i => addp (map (fun j => [Ln hd i j]) (zrange (i + 2) (d + 1)))) from p to d.
  2:{ for_new "j" (CL "clauses") HL (fun j => addp [[Ln hd i j]]) from s0 to (d + 1).
      - sts. rewrite addp_map. endbody.
      - sts. endbody. }
  rewrite addp_fold. sts. unfold p. rewrite <- !addp_app, addp_start. unfold no_excess. reflexivity.
Qed.
(* c.Val[0] of an empty constant *)
Lemma go_hammingDistVC_panic n vm0 v c hd :
  (4 <= n)%nat -> ValidateConstsDim (Dim M) [c] = None -> cVal c = [] ->
  gocall n "leh.hammingDistVC" [VStr v; v_const c; VStr hd; VPtr 0] (HC vm0)
  = (Panic, snd (gocall n "leh.hammingDistVC" [VStr v; v_const c; VStr hd; VPtr 0] (HC vm0))).
Proof.
  intros Hn Hv Hc.
  assert (E : exists h', gocall n "leh.hammingDistVC" [VStr v; v_const c; VStr hd; VPtr 0] (HC vm0) = (Panic, h'))
    ; [|destruct E as (h' & E); now rewrite E].
  eexists. func src_leh_hammingDistVC. stp. stp. change (VLst []) with (v_clauses []). stp.
  erewrite plug_panic; [|eapply ex_assign_panic; eapply ev_app_args_panic; [ev|];
    eapply xm_here_panic; eapply ev_lst_panic; eapply xm_next_panic; [ev|];
    eapply xm_here_panic; eapply ev_meth_panic; [ev|];
    eapply xm_next_panic; [ev|]; eapply xm_next_panic; [ev|]; eapply xm_here_panic;
    eapply ev_idx_panic; [ev|ev|unfold v_feats; now rewrite Hc] ].
  sts. reflexivity.
Qed.
Hint Resolve go_varFullClauses go_fullVarEqualClauses go_hammingDistVV go_hammingDistVC : gocall.

Lemma valid_one c : length (cVal c) = Dim M -> ValidateConstsDim (Dim M) [c] = None.
Proof. intros H. apply validate_iff. constructor; [exact H | constructor]. Qed.

(* The last two loops of the four methods with two distances. *)
Definition sem_row (h1 h2 : string) (i : Z) : list emit :=
  map (fun j => ESem [[Ln h1 (d - 1) i; Ln h2 (d - 1) j]]) (zrange 0 i).
Lemma sem_rows h1 h2 : flat_map (sem_row h1 h2) (zrange 1 (d + 1)) = map (fun cl => ESem [cl]) (leh_sem d h1 h2).
Proof.
  unfold leh_sem. generalize (zrange 1 (d + 1)) as l. induction l as [|i l IH]; [reflexivity|].
  cbn [flat_map]. rewrite map_app, IH. f_equal. unfold sem_row. now rewrite map_map.
Qed.
Ltac two_loops h1 h2 start :=
  for_new "i" (NC "ncnf") HN (fun i => emitsp (sem_row h1 h2 i)) from start to (d + 1);
  [ | lazymatch goal with
      | Hi : 1 <= ?i < _, p : CNF * varman |- _ =>
          for_new "j" (NC "ncnf") HN (fun j => emitp (ESem [[Ln h1 (d - 1) i; Ln h2 (d - 1) j]])) from p to i;
          [ sts; rewrite emit_map; endbody | sts; endbody ]
      end ];
  rewrite emit_flat_map, sem_rows.

Lemma go_LehVVV n v1 v2 v3 k1 k2 :
  (levels s + 5 <= n)%nat -> (Dim M + 4 <= n)%nat ->
  says g (ENC n "leh.VarVarVar.Encoding" (LehVVV v1 v2 v3 k1 k2)) (enc_atom (LehVVV v1 v2 v3 k1 k2) C).
Proof.
  destruct k1 as [hd|].
  2:{ enter src_leh_VarVarVar_Encoding. sts. reflexivity. }
  destruct k2 as [ef|].
  2:{ enter src_leh_VarVarVar_Encoding. sts. reflexivity. }
  enter src_leh_VarVarVar_Encoding. stp. stp. stp.
  scopevar v1 w1. stp. scopevar v2 w2. stp. scopevar v3 w3. cbn [rbind]. do 13 stp.
  set (es := [ESem (full_v d w1); ESem (full_v d w2); ESem (full_v d w3);
          ECons (fullVarEqualClauses d w1 w2 (ef w1 w2));
          ECons (fullVarEqualClauses d w1 w3 (ef w1 w3));
          ECons (hammingDistVV d (hd w1 w2) (ef w1 w2));
          ECons (hammingDistVV d (hd w1 w3) (ef w1 w3))]).
  two_loops (hd w1 w2) (hd w1 w3) (emitsp es (TrueCNF, vm)).
  sts. apply says_emits. rewrite <- emitsp_start, emitsp_app. reflexivity.
Qed.

Lemma emits_late cls A B p :
  emitsp [EAlloc (clause_vars cls); ECons A; ECons B; ECons cls] p
  = (let p' := emitp (ECons B) (emitp (ECons A) (fst p, snd (alloc_clauses (snd p) cls))) in
     (AppendConsistency (fst p') (fst (alloc_clauses (snd p) cls)), snd p')).
Proof.
  destruct p as [f vm0]. unfold emitsp. cbn [fold_left emitp fst snd]. rewrite <- alloc_clauses_vars.
  cbv zeta. cbn [fst snd]. rewrite !(alloc_clauses_vars B), !(alloc_clauses_vars A), <- !alloc_vars_app.
  now rewrite !cons_late.
Qed.

Lemma first_feat_0 {B} (x : res B) : Dim M = 0%nat -> first_feat (Dim M) x = Panic.
Proof. now intros ->. Qed.
Lemma first_feat_S {B} (x : res B) : (0 < Dim M)%nat -> first_feat (Dim M) x = x.
Proof. destruct (Dim M); [lia | reflexivity]. Qed.
Ltac no_features Ed :=
  rewrite (first_feat_0 _ Ed);
  erewrite plug_panic;
    [|eapply ex_assign2_panic; eapply ev_call_panic;
      [evs | eapply go_hammingDistVC_panic; [lia | assumption | apply length_zero_iff_nil; congruence] ] ];
  sts; reflexivity.

Lemma go_LehVVC n v1 v2 c k1 k2 :
  (levels s + 5 <= n)%nat -> (Dim M + 4 <= n)%nat ->
  says g (ENC n "leh.VarVarConst.Encoding" (LehVVC v1 v2 c k1 k2)) (enc_atom (LehVVC v1 v2 c k1 k2) C).
Proof.
  destruct k1 as [hd|].
  2:{ enter src_leh_VarVarConst_Encoding. sts. reflexivity. }
  destruct k2 as [ef|].
  2:{ enter src_leh_VarVarConst_Encoding. sts. reflexivity. }
  enter src_leh_VarVarConst_Encoding. stp. stp. stp.
  scopevar v1 w1. stp. scopevar v2 w2. cbn [rbind]. stp. const c k. stp. stp. stp.
  destruct (ValidateConstsDim (Dim M) [k]) as [e|] eqn:V; unfold guard; [sts; reflexivity|].
  pose proof (valid_lens _ _ k V ltac:(now left)) as L. stp. stp.
  destruct (IsFull k) eqn:F; [|sts; reflexivity]. cbn [negb]. stp. stp. stp. stp.
  set (es := [ESem (full_v d w1); ESem (full_v d w2)]).
  destruct (Nat.eq_dec (Dim M) 0) as [Ed|Ed]; [no_features Ed|]. rewrite first_feat_S by lia.
  set (cls := hammingDistVC d w1 (cVal k) (hd w1 (AsString k))).
  set (A := fullVarEqualClauses d w1 w2 (ef w1 w2)). set (B := hammingDistVV d (hd w1 w2) (ef w1 w2)).
  do 5 stp.
  two_loops (hd w1 w2) (hd w1 (AsString k))
    (let p := emitsp es (TrueCNF, vm) in
     let p' := emitp (ECons B) (emitp (ECons A) (fst p, snd (alloc_clauses (snd p) cls))) in
     (AppendConsistency (fst p') (fst (alloc_clauses (snd p) cls)), snd p')).
  sts. apply says_emits. rewrite <- emits_late, <- emitsp_app, <- emitsp_start, <- emitsp_app. reflexivity.
Qed.

Lemma go_LehVCV n v1 c v2 k1 k2 :
  (levels s + 5 <= n)%nat -> (Dim M + 4 <= n)%nat ->
  says g (ENC n "leh.VarConstVar.Encoding" (LehVCV v1 c v2 k1 k2)) (enc_atom (LehVCV v1 c v2 k1 k2) C).
Proof.
  destruct k1 as [hd|].
  2:{ enter src_leh_VarConstVar_Encoding. sts. reflexivity. }
  destruct k2 as [ef|].
  2:{ enter src_leh_VarConstVar_Encoding. sts. reflexivity. }
  enter src_leh_VarConstVar_Encoding. stp. stp. stp. const c k.
  scopevar v1 w1. stp. scopevar v2 w2. cbn [rbind]. stp. stp. stp. stp.
  destruct (ValidateConstsDim (Dim M) [k]) as [e|] eqn:V; unfold guard; [sts; reflexivity|].
  pose proof (valid_lens _ _ k V ltac:(now left)) as L. stp. stp.
  destruct (IsFull k) eqn:F; [|sts; reflexivity]. cbn [negb]. stp. stp. stp. stp.
  set (es := [ESem (full_v d w1); ESem (full_v d w2)]).
  destruct (Nat.eq_dec (Dim M) 0) as [Ed|Ed]; [no_features Ed|]. rewrite first_feat_S by lia.
  set (cls := hammingDistVC d w1 (cVal k) (hd w1 (AsString k))).
  set (A := fullVarEqualClauses d w1 w2 (ef w1 w2)). set (B := hammingDistVV d (hd w1 w2) (ef w1 w2)).
  do 5 stp.
  two_loops (hd w1 (AsString k)) (hd w1 w2)
    (let p := emitsp es (TrueCNF, vm) in
     let p' := emitp (ECons B) (emitp (ECons A) (fst p, snd (alloc_clauses (snd p) cls))) in
     (AppendConsistency (fst p') (fst (alloc_clauses (snd p) cls)), snd p')).
  sts. apply says_emits. rewrite <- emits_late, <- emitsp_app, <- emitsp_start, <- emitsp_app. reflexivity.
Qed.

Lemma go_LehCVV n c v1 v2 k1 :
  (levels s + 5 <= n)%nat -> (Dim M + 4 <= n)%nat ->
  says g (ENC n "leh.ConstVarVar.Encoding" (LehCVV c v1 v2 k1)) (enc_atom (LehCVV c v1 v2 k1) C).
Proof.
  destruct k1 as [hd|].
  2:{ enter src_leh_ConstVarVar_Encoding. sts. reflexivity. }
  enter src_leh_ConstVarVar_Encoding. stp. stp. stp. const c k.
  scopevar v1 w1. stp. scopevar v2 w2. cbn [rbind]. stp. stp. stp. stp.
  destruct (ValidateConstsDim (Dim M) [k]) as [e|] eqn:V; unfold guard; [sts; reflexivity|].
  pose proof (valid_lens _ _ k V ltac:(now left)) as L. stp. stp.
  destruct (IsFull k) eqn:F; [|sts; reflexivity]. cbn [negb]. stp. stp. stp. stp.
  destruct (Nat.eq_dec (Dim M) 0) as [Ed|Ed]; [no_features Ed|]. rewrite first_feat_S by lia.
  set (es := [ESem (full_v d w1); ESem (full_v d w2);
              ECons (hammingDistVC d w1 (cVal k) (hd w1 (AsString k)));
              ECons (hammingDistVC d w2 (cVal k) (hd w2 (AsString k)))]).
  do 6 stp.
  two_loops (hd w1 (AsString k)) (hd w2 (AsString k)) (emitsp es (TrueCNF, vm)).
  sts. apply says_emits. rewrite <- emitsp_start, emitsp_app. reflexivity.
Qed.
End Leh.
