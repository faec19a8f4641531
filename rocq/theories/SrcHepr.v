(* The text of query/extensions/hepr against the model. *)
From Verif Require Import GoBase GoLemmas Cnf Query Walk Atoms Logop GoLang GoSource SrcBase SrcLemmas SrcCnf SrcQuery SrcCtx SrcPred SrcNode SrcExt Size Total WalkLemmas AtomBase AtomRest.
Local Open Scope string_scope.
Local Open Scope Z_scope.
Local Open Scope list_scope.

(* hepr/util.go:28-36 *)
Lemma go_prefVar n h pref :
  (1 <= n)%nat -> gocall n "hepr.prefVar" [v_feats pref] h = (Ok [VStr (prefVar pref)], h).
Proof.
  func src_hepr_prefVar. stp.
  rng (fun s => [("sb", v_builder s)]) (fun i s => (s ++ itoa i)%string).
  - sts. reflexivity.
  - sts. reflexivity.
Qed.
Global Hint Resolve go_prefVar : gocall.

(* The marks of validatePref: one entry for each feature, true for those seen. *)
Definition v_marks (d : nat) (seen : list Z) : val :=
  VLst (map (fun i => VBool (existsb (Z.eqb i) seen)) (zrange 0 (Z.of_nat d))).
Lemma idx_zrange {A} (f : Z -> A) d i :
  0 <= i < Z.of_nat d -> nth_error (map f (zrange 0 (Z.of_nat d))) (Z.to_nat i) = Some (f i).
Proof.
  intros H. rewrite nth_error_map. unfold zrange. rewrite nth_error_map.
  replace (Z.to_nat (Z.of_nat d - 0)) with d by lia.
  rewrite (nth_error_nth' _ 0%nat) by (rewrite seq_length; lia). rewrite seq_nth by lia.
  cbn [option_map]. do 2 f_equal. lia.
Qed.
Lemma idx_marks d seen i :
  0 <= i < Z.of_nat d -> v_index (v_marks d seen) (VInt i) = Ok (VBool (existsb (Z.eqb i) seen)).
Proof.
  intros H. unfold v_marks, v_index, sget. destruct (Z.ltb_spec i 0); [lia|].
  now rewrite (idx_zrange (fun i => VBool (existsb (Z.eqb i) seen))) by exact H.
Qed.
Lemma make_marks d : v_make (VBool false) (VInt (Z.of_nat d)) = Ok (v_marks d []).
Proof.
  unfold v_make, v_marks. destruct (Z.ltb_spec (Z.of_nat d) 0); [lia|]. cbn [existsb].
  do 2 f_equal. unfold zrange. rewrite map_map.
  replace (Z.to_nat (Z.of_nat d - 0)) with d by lia. rewrite Nat2Z.id. generalize 0%nat as k.
  clear. induction d as [|d IH]; intros k; [reflexivity|]. cbn [repeat seq map]. now rewrite <- IH.
Qed.
Lemma set_zrange {A} (f : Z -> A) d i x :
  list_set (map f (zrange 0 (Z.of_nat d))) i x
  = map (fun j => if j =? Z.of_nat i then x else f j) (zrange 0 (Z.of_nat d)).
Proof.
  unfold zrange. rewrite !map_map. replace (Z.to_nat (Z.of_nat d - 0)) with d by lia.
  assert (E : forall k, list_set (map (fun x : nat => f (0 + Z.of_nat x)) (seq k d)) i x
     = map (fun j : nat => if 0 + Z.of_nat j =? Z.of_nat (k + i) then x else f (0 + Z.of_nat j)) (seq k d)).
  { revert i. induction d as [|d IH]; intros i k; [now destruct i|]. cbn [seq map]. destruct i as [|i]; cbn [list_set].
    - rewrite Nat.add_0_r, Z.eqb_refl. f_equal. apply map_ext_in. intros j Hj. apply in_seq in Hj.
      destruct (Z.eqb_spec (0 + Z.of_nat j) (Z.of_nat k)); [lia | reflexivity].
    - destruct (Z.eqb_spec (0 + Z.of_nat k) (Z.of_nat (k + Datatypes.S i))); [lia|]. f_equal.
      rewrite IH. now replace (Datatypes.S k + i)%nat with (k + Datatypes.S i)%nat by lia. }
  exact (E 0%nat).
Qed.
Lemma set_marks d seen i :
  0 <= i < Z.of_nat d -> v_set_index (v_marks d seen) (VInt i) (VBool true) = Ok (v_marks d (i :: seen)).
Proof.
  intros H. unfold v_marks, v_set_index, sset. rewrite map_length, zrange_len.
  replace (i <? 0) with false by lia. replace (Z.to_nat i <? _)%nat with true by (symmetry; apply Nat.ltb_lt; lia).
  cbn [rbind]. do 2 f_equal. rewrite set_zrange. apply map_ext. intros j. cbn [existsb]. rewrite Z2Nat.id by lia.
  now destruct (j =? i).
Qed.

(* for _, a := range l whose turns change variables or return *)
Lemma rrun_ret {A T} (f : Z -> A -> T -> T + list val) (mk : T -> ms) i l s :
  match rrun f i l s with
  | inl s' => rrun (fun i a s => match f i a s with
                | inl s' => inl s' | inr r => inr (Ok (FRet (Some r)), mk s) end) i l s = inl s'
  | inr r => exists s', rrun (fun i a s => match f i a s with
                | inl s' => inl s' | inr r => inr (Ok (FRet (Some r)), mk s) end) i l s
                        = inr (Ok (FRet (Some r)), mk s')
  end.
Proof.
  revert i s. induction l as [|a l IH]; intros i s; [reflexivity|]. cbn [rrun].
  destruct (f i a s); [apply IH | eauto].
Qed.
Definition pref_turn (d : nat) (_ i : Z) (seen : list Z) : list Z + list val :=
  if (i <? 0) || (Z.of_nat d <=? i) then
    inr [VErr ("Preference feature index out of range '" ++ itoa i ++ "'") []]
  else if existsb (Z.eqb i) seen then inr [VErr ("Invalid duplicate preference '" ++ itoa i ++ "'") []]
  else inl (i :: seen).
Lemma pref_turns d pref : forall i seen,
  match validatePref_from seen pref d with
  | None => exists s, rrun (pref_turn d) i pref seen = inl s
  | Some e => rrun (pref_turn d) i pref seen = inr [VErr e []]
  end.
Proof.
  induction pref as [|a pref IH]; intros i seen; cbn [validatePref_from rrun]; [eauto|].
  unfold pref_turn at 1 3. destruct (_ || _); [reflexivity|]. destruct (existsb _ _); [reflexivity|]. apply IH.
Qed.
(* hepr/util.go:13-25 *)
Lemma go_validatePref n h pref d :
  (1 <= n)%nat ->
  gocall n "hepr.validatePref" [v_feats pref; VInt (Z.of_nat d)] h = (Ok [v_err (validatePref pref d)], h).
Proof.
  func src_hepr_validatePref. pose proof (make_marks d) as Em. stp. clear Em.
  set (mk0 := fun l : list Z => mkMs [[("seen", v_marks d l); ("pref", v_feats pref); ("dim", VInt (Z.of_nat d))]] [] h).
  rngr (fun l => [("seen", v_marks d l)])
    (fun i a s => match pref_turn d i a s with inl s' => inl s' | inr r => inr (Ok (FRet (Some r)), mk0 s) end) (@nil Z).
  - pose proof (rrun_ret (pref_turn d) mk0 0 pref []) as R. pose proof (pref_turns d pref 0 []) as P.
    unfold validatePref. destruct (validatePref_from [] pref d) as [e|].
    + rewrite P in R. destruct R as (s' & ->). unfold mk0. sts. reflexivity.
    + destruct P as (s' & P). rewrite P in R. rewrite R. sts. reflexivity.
  - unfold pref_turn. destruct (a <? 0) eqn:E1; cbn [orb].
    { stp. rewrite E1. cbv iota. split; [|exact Logic.I]. sts. reflexivity. }
    destruct (Z.of_nat d <=? a) eqn:E2.
    { split; [|exact Logic.I]. stp. rewrite E1. cbv iota. rewrite E2. cbv iota. sts. reflexivity. }
    pose proof (idx_marks d s a ltac:(lia)) as X. pose proof (set_marks d s a ltac:(lia)) as Y.
    destruct (existsb (Z.eqb a) s).
    { split; [|exact Logic.I]. stp. rewrite E1. cbv iota. rewrite E2. cbv iota. sts. reflexivity. }
    stp. rewrite E1. cbv iota. rewrite E2. cbv iota. sts. endbody.
Qed.
Global Hint Resolve go_validatePref : gocall.

(* for i := hi; i >= 0; i-- *)
Ltac for_dn x us hp stp init top :=
  lazymatch goal with
  | |- context [run_block _ None (SFor _ _ _ _ :: _) ?st] =>
      let mk := mk_for true x us hp st in
      let i := fresh "i" in let s := fresh "s" in let Hi := fresh "Hi" in
      erewrite plug_step;
        [ | eapply (ex_for_down _ mk stp) with (s0 := init) (hi := top);
            [ blk
            | intros i s; red_env; first [solve [ev] | le_cond]
            | intros i s Hi; red_env
            | intros i s; red_env; blk
            | try lia ] ]
  end.
Tactic Notation "for_down" constr(x) constr(us) constr(hp) constr(stp) "from" constr(init) "to" constr(hi) :=
  for_dn x us hp stp init hi.

Lemma pref_in pref d : validatePref pref d = None -> forall i, 0 <= i < Z.of_nat (length pref) -> 0 <= vget pref i < Z.of_nat d.
Proof.
  intros H i Hi. apply validatePref_ok in H as [H _]. rewrite Forall_forall in H. apply H.
  unfold vget. apply nth_In. lia.
Qed.
Lemma rfind_pref {B} v1 v2 (a b : B) pref i :
  rfind (fun _ j => if negb (vget v1 j =? BOT) && (vget v2 j =? BOT) then Some a
                    else if (vget v1 j =? BOT) && negb (vget v2 j =? BOT) then Some b else None) i pref
  = match rfind (fun _ j => if negb (vget v1 j =? BOT) && (vget v2 j =? BOT) then Some true
                    else if (vget v1 j =? BOT) && negb (vget v2 j =? BOT) then Some false else None) i pref with
    | Some true => Some a | Some false => Some b | None => None
    end.
Proof.
  revert i. induction pref as [|j pref IH]; intros i; [reflexivity|]. cbn [rfind].
  destruct (_ && _); [reflexivity|]. destruct (_ && _); [reflexivity|]. apply IH.
Qed.
Lemma hepr_cc_rfind v1 v2 pref i :
  hepr_cc v1 v2 pref
  = match rfind (fun _ j => if negb (vget v1 j =? BOT) && (vget v2 j =? BOT) then Some true
                    else if (vget v1 j =? BOT) && negb (vget v2 j =? BOT) then Some false else None) i pref with
    | Some b => b | None => true
    end.
Proof.
  revert i. induction pref as [|j pref IH]; intros i; [reflexivity|]. cbn [rfind hepr_cc].
  destruct (_ && _); [reflexivity|]. destruct (_ && _); [reflexivity|]. apply IH.
Qed.

Lemma says_sem s M g vm es cls P :
  run_emits vm es = emitp (ESem cls) P ->
  says g (Ok [v_cnf (AppendSemantics (fst P) (fst (alloc_clauses (snd P) cls))); VNil],
          hc s M g (snd (alloc_clauses (snd P) cls)))
    (let (f, vm') := run_emits vm es in (Ok f, set_vm (mkCtx s vm M) vm')).
Proof. apply says_emits. Qed.

Section Hepr.
Variables (s : scoper) (M : model) (g : heap) (vm : varman).
Notation ENC n f a := (gocall n f [v_atom a; VPtr 0] (hc s M g vm)).
Notation C := (mkCtx s vm M).
Notation HC := (hc s M g).

Lemma go_HeprCC n c1 c2 pref :
  (levels s + 4 <= n)%nat -> (Dim M + 2 <= n)%nat ->
  says g (ENC n "hepr.ConstConst.Encoding" (HeprCC c1 c2 pref)) (enc_atom (HeprCC c1 c2 pref) C).
Proof.
  enter src_hepr_ConstConst_Encoding. stp. stp.
  destruct (validatePref pref (Dim M)) as [e|] eqn:V0; [sts; reflexivity|]. cbv iota. 
  pose proof (pref_in _ _ V0) as R. unfold guard at 1. stp.
  const c1 k1. const c2 k2.
  destruct (ValidateConstsDim (Dim M) [k1; k2]) as [e|] eqn:V; sts; [reflexivity|].
  pose proof (valid_lens _ _ k1 V ltac:(now left)) as L1. pose proof (valid_lens _ _ k2 V ltac:(right; now left)) as L2.
  unfold guard. destruct (Z.eqb_spec (Z.of_nat (length pref)) 0) as [E0|E0].
  { destruct pref; [|discriminate]. sts. reflexivity. }
  stp.
  find_idx (fun (_ : Z) j =>
    if negb (vget (cVal k1) j =? BOT) && (vget (cVal k2) j =? BOT) then Some [v_cnf TrueCNF; VNil]
    else if (vget (cVal k1) j =? BOT) && negb (vget (cVal k2) j =? BOT) then Some [v_cnf FalseCNF; VNil] else None).
  - rewrite rfind_pref, (hepr_cc_rfind _ _ pref 0). destruct (rfind _ _ _) as [[]|]; sts; reflexivity.
  - assert (Ha : 0 <= a < Z.of_nat (Dim M)).
    { assert (Hl : (Z.to_nat i < length pref)%nat) by (apply nth_error_Some; congruence).
      replace a with (vget pref i); [apply R; lia|]. unfold vget. now apply nth_error_nth. }
    unfold BOT. destruct (vget (cVal k1) a =? 0) eqn:E1; cbn [negb andb].
    + stp. rewrite E1. cbv iota. stp. stp. rewrite E1. cbv iota. destruct (vget (cVal k2) a =? 0); sts; reflexivity.
    + stp. rewrite E1. cbv iota. destruct (vget (cVal k2) a =? 0) eqn:E2; [sts; reflexivity|]. stp. stp. rewrite E1. cbv iota. sts. reflexivity.
Qed.

(* The clauses and the index read last. *)
Notation US := (fun p : (CNF * varman) * Z => [("ncnf"%string, v_cnf (fst (fst p))); ("idx"%string, VInt (snd p))]).
Notation HS := (fun p : (CNF * varman) * Z => HC (snd (fst p))).
Notation STEP f pref := (fun i (p : (CNF * varman) * Z) => (emitp (f i) (fst p), vget pref i)).

Lemma go_HeprVV n v1 v2 pref k :
  (levels s + 4 <= n)%nat -> (Dim M + 2 <= n)%nat ->
  says g (ENC n "hepr.VarVar.Encoding" (HeprVV v1 v2 pref k)) (enc_atom (HeprVV v1 v2 pref k) C).
Proof.
  destruct k as [gen|].
  2:{ enter src_hepr_VarVar_Encoding. sts. reflexivity. }
  enter src_hepr_VarVar_Encoding. stp. stp. stp.
  destruct (validatePref pref (Dim M)) as [e|] eqn:V0; [sts; reflexivity|]. cbv iota. 
  pose proof (pref_in _ _ V0) as R. pose proof (pref_short _ _ V0) as Rl. unfold guard at 1. stp.
  scopevar v1 w1. stp. scopevar v2 w2. stp. stp. stp. stp. cbn [rbind].
  destruct pref as [|p0 pref0] eqn:Ep.
  { erewrite plug_panic; [|eapply ex_assign_panic; eapply ev_idx_panic; [ev|ev|reflexivity]]. sts. reflexivity. }
  rewrite <- Ep in *. assert (Hp : 0 < Z.of_nat (length pref)) by (rewrite Ep; cbn [length]; lia). clear Ep.
  set (h := gen (prefVar pref) w1 w2). set (plen := Z.of_nat (length pref)) in *.
  stp. stp. unfold hepr_vv. cbv zeta. fold plen.
  match goal with |- context [map ?f (hepr_idxs _)] => set (row := f) end.
  match goal with |- context [run_emits _ ([?e] ++ _)] => set (fst_row := e) end.
  for_down "i" US HS (STEP row pref) from (emitp fst_row (TrueCNF, vm), vget pref (plen - 1)) to (plen - 2).
  - rewrite (fst_fold (fun i => emitp (row i))), emit_map. stp. apply says_sem.
    unfold hepr_idxs. replace (plen - 2 + 1) with (plen - 1) by lia.
    rewrite <- emitsp_start, !emitsp_app. reflexivity.
  - stp. stp. endbody.
Qed.

Lemma go_HeprVC n v c pref k :
  (levels s + 4 <= n)%nat -> (Dim M + 2 <= n)%nat ->
  says g (ENC n "hepr.VarConst.Encoding" (HeprVC v c pref k)) (enc_atom (HeprVC v c pref k) C).
Proof.
  destruct k as [gen|].
  2:{ enter src_hepr_VarConst_Encoding. sts. reflexivity. }
  enter src_hepr_VarConst_Encoding. stp. stp. stp.
  destruct (validatePref pref (Dim M)) as [e|] eqn:V0; [sts; reflexivity|]. cbv iota. 
  pose proof (pref_in _ _ V0) as R. pose proof (pref_short _ _ V0) as Rl. unfold guard at 1. stp. stp.
  scopevar v w. stp. const c k. stp. stp. cbn [rbind].
  destruct (ValidateConstsDim (Dim M) [k]) as [e|] eqn:V; unfold guard; [sts; reflexivity|]. 
  pose proof (valid_lens _ _ k V ltac:(now left)) as L.
  stp. stp. stp.
  destruct pref as [|p0 pref0] eqn:Ep.
  { erewrite plug_panic; [|eapply ex_assign_panic; eapply ev_idx_panic; [ev|ev|reflexivity]]. sts. reflexivity. }
  rewrite <- Ep in *. assert (Hp : 0 < Z.of_nat (length pref)) by (rewrite Ep; cbn [length]; lia). clear Ep.
  set (h := gen (prefVar pref) w (AsString k)). set (plen := Z.of_nat (length pref)) in *.
  pose proof (R (plen - 1) ltac:(lia)) as R1.
  stp. unfold hepr_vc. cbv zeta. fold plen.
  match goal with |- context [map ?f (hepr_idxs _)] => set (row := f) end.
  match goal with |- context [run_emits _ ((if negb (_ =? BOT) then [?e] else [?e']) ++ _)] =>
    set (fst_row := if negb (vget (cVal k) (vget pref (plen - 1)) =? BOT) then e else e') end.
  match goal with |- context [run_emits _ (?a ++ _)] => replace a with [fst_row] by (unfold fst_row; now destruct (negb _)) end.
  unfold BOT in fst_row. destruct (vget (cVal k) (vget pref (plen - 1)) =? 0) eqn:E1; cbn [negb] in fst_row.
  all: stp; rewrite E1; cbv iota; stp.
  all: for_down "i" US HS (STEP row pref) from (emitp fst_row (TrueCNF, vm), vget pref (plen - 1)) to (plen - 2);
    [ rewrite (fst_fold (fun i => emitp (row i))), emit_map; stp; apply says_sem;
      unfold hepr_idxs; replace (plen - 2 + 1) with (plen - 1) by lia;
      rewrite <- emitsp_start, !emitsp_app; reflexivity |].
  all: clear E1 R1; pose proof (R i ltac:(lia)) as R1; unfold row, BOT in *; stp;
    destruct (vget (cVal k) (vget pref i) =? 0) eqn:E1; cbn [negb]; stp; rewrite E1; cbv iota; sts; endbody.
Qed.

Lemma go_HeprCV n c v pref k :
  (levels s + 4 <= n)%nat -> (Dim M + 2 <= n)%nat ->
  says g (ENC n "hepr.ConstVar.Encoding" (HeprCV c v pref k)) (enc_atom (HeprCV c v pref k) C).
Proof.
  destruct k as [gen|].
  2:{ enter src_hepr_ConstVar_Encoding. sts. reflexivity. }
  enter src_hepr_ConstVar_Encoding. stp. stp. stp.
  destruct (validatePref pref (Dim M)) as [e|] eqn:V0; [sts; reflexivity|]. cbv iota. 
  pose proof (pref_in _ _ V0) as R. pose proof (pref_short _ _ V0) as Rl. unfold guard at 1. stp. stp.
  const c k. scopevar v w. stp. stp. stp. cbn [rbind].
  destruct (ValidateConstsDim (Dim M) [k]) as [e|] eqn:V; unfold guard; [sts; reflexivity|]. 
  pose proof (valid_lens _ _ k V ltac:(now left)) as L.
  stp. stp. stp.
  destruct pref as [|p0 pref0] eqn:Ep.
  { erewrite plug_panic; [|eapply ex_assign_panic; eapply ev_idx_panic; [ev|ev|reflexivity]]. sts. reflexivity. }
  rewrite <- Ep in *. assert (Hp : 0 < Z.of_nat (length pref)) by (rewrite Ep; cbn [length]; lia). clear Ep.
  set (h := gen (prefVar pref) (AsString k) w). set (plen := Z.of_nat (length pref)) in *.
  pose proof (R (plen - 1) ltac:(lia)) as R1.
  stp. unfold hepr_cv. cbv zeta. fold plen.
  match goal with |- context [map ?f (hepr_idxs _)] => set (row := f) end.
  match goal with |- context [run_emits _ ((if negb (_ =? BOT) then [?e] else [?e']) ++ _)] =>
    set (fst_row := if negb (vget (cVal k) (vget pref (plen - 1)) =? BOT) then e else e') end.
  match goal with |- context [run_emits _ (?a ++ _)] => replace a with [fst_row] by (unfold fst_row; now destruct (negb _)) end.
  unfold BOT in fst_row. destruct (vget (cVal k) (vget pref (plen - 1)) =? 0) eqn:E1; cbn [negb] in fst_row.
  all: stp; rewrite E1; cbv iota; stp.
  all: for_down "i" US HS (STEP row pref) from (emitp fst_row (TrueCNF, vm), vget pref (plen - 1)) to (plen - 2);
    [ rewrite (fst_fold (fun i => emitp (row i))), emit_map; stp; apply says_sem;
      unfold hepr_idxs; replace (plen - 2 + 1) with (plen - 1) by lia;
      rewrite <- emitsp_start, !emitsp_app; reflexivity |].
  all: clear E1 R1; pose proof (R i ltac:(lia)) as R1; unfold row, BOT in *; stp;
    destruct (vget (cVal k) (vget pref i) =? 0) eqn:E1; cbn [negb]; stp; rewrite E1; cbv iota; sts; endbody.
Qed.
End Hepr.
