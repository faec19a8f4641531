(* The text of query/extensions/leh against the model: the components with two
   or three constants. *)
From Verif Require Import GoBase GoLemmas Cnf Query Walk Atoms Logop GoLang GoSource SrcBase SrcLemmas SrcCnf SrcQuery SrcCtx SrcPred SrcNode SrcExt SrcDfs SrcHepr SrcLeh Size Errors.
Local Open Scope string_scope.
Local Open Scope Z_scope.
Local Open Scope list_scope.

Section Leh.
Variables (s : scoper) (M : model) (g : heap) (vm : varman).
Notation ENC n f a := (gocall n f [v_atom a; VPtr 0] (hc s M g vm)).
Notation C := (mkCtx s vm M).
Notation HC := (hc s M g).
Notation NC x := (fun p : CNF * varman => [(x%string, v_cnf (fst p))]).
Notation HN := (fun p : CNF * varman => HC (snd p)).
Notation d := (Z.of_nat (Dim M)).
Hint Resolve go_varFullClauses go_hammingDistVC : gocall.
Ltac two_loops h1 h2 start :=
  for_new "i" (NC "ncnf") HN (fun i => emitsp (sem_row M h1 h2 i)) from start to (d + 1);
  [ | lazymatch goal with
      | Hi : 1 <= ?i < _, p : CNF * varman |- _ =>
          for_new "j" (NC "ncnf") HN (fun j => emitp (ESem [[Ln h1 (d - 1) i; Ln h2 (d - 1) j]])) from p to i;
          [ sts; rewrite emit_map; endbody | sts; endbody ]
      end ];
  rewrite emit_flat_map, sem_rows.
Ltac no_features Ed :=
  rewrite (first_feat_0 _ _ Ed);
  erewrite plug_panic;
    [|eapply ex_assign2_panic; eapply ev_call_panic;
      [evs | eapply go_hammingDistVC_panic; [lia | assumption | apply length_zero_iff_nil; congruence] ] ];
  sts; reflexivity.

Lemma go_LehVCC n v c1 c2 k1 :
  (levels s + 5 <= n)%nat -> (Dim M + 4 <= n)%nat ->
  says g (ENC n "leh.VarConstConst.Encoding" (LehVCC v c1 c2 k1)) (enc_atom (LehVCC v c1 c2 k1) C).
Proof.
  destruct k1 as [hd|].
  2:{ enter src_leh_VarConstConst_Encoding. sts. reflexivity. }
  enter src_leh_VarConstConst_Encoding. stp. stp. stp. const c1 x. const c2 y.
  scopevar v w. cbn [rbind]. stp. stp. stp. stp.
  destruct (ValidateConstsDim (Dim M) [x; y]) as [e|] eqn:V; unfold guard; [sts; reflexivity|].
  pose proof (valid_lens _ _ x V ltac:(now left)) as Lx.
  pose proof (valid_lens _ _ y V ltac:(right; now left)) as Ly.
  pose proof (valid_one _ _ Lx) as Vx. pose proof (valid_one _ _ Ly) as Vy. stp. stp.
  destruct (IsFull x) eqn:Fx; cbn [negb orb]; [|sts; reflexivity].
  destruct (IsFull y) eqn:Fy; cbn [negb orb]; [|sts; reflexivity]. cbv iota. stp. stp.
  destruct (Nat.eq_dec (Dim M) 0) as [Ed|Ed]; [no_features Ed|]. rewrite first_feat_S by lia.
  set (es := [EFrom (full_v d w); ECons (hammingDistVC d w (cVal x) (hd w (AsString x)));
              ECons (hammingDistVC d w (cVal y) (hd w (AsString y)))]).
  do 6 stp.
  two_loops (hd w (AsString x)) (hd w (AsString y)) (emitsp es (TrueCNF, vm)).
  sts. apply says_emits. rewrite <- emitsp_start, emitsp_app. reflexivity.
Qed.

Lemma go_LehCVC n c1 v c2 k1 :
  (levels s + 5 <= n)%nat -> (Dim M + 4 <= n)%nat ->
  says g (ENC n "leh.ConstVarConst.Encoding" (LehCVC c1 v c2 k1)) (enc_atom (LehCVC c1 v c2 k1) C).
Proof.
  destruct k1 as [hd|].
  2:{ enter src_leh_ConstVarConst_Encoding. sts. reflexivity. }
  enter src_leh_ConstVarConst_Encoding. stp. stp. stp. const c1 x. const c2 y.
  scopevar v w. cbn [rbind]. stp. stp. stp.
  destruct (ValidateConstsDim (Dim M) [x; y]) as [e|] eqn:V; unfold guard; [sts; reflexivity|].
  pose proof (valid_lens _ _ x V ltac:(now left)) as Lx.
  pose proof (valid_lens _ _ y V ltac:(right; now left)) as Ly.
  pose proof (valid_one _ _ Lx) as Vx. pose proof (valid_one _ _ Ly) as Vy. stp. stp.
  destruct (IsFull x) eqn:Fx; cbn [negb orb]; [|sts; reflexivity].
  destruct (IsFull y) eqn:Fy; cbn [negb orb]; [|sts; reflexivity]. cbv iota. stp.
  pose proof (hammingDistCC_le (cVal x) (cVal y)) as B. rewrite Lx in B.
  pose proof (eq_trans Lx (eq_sym Ly)) as Lxy.
  cbv zeta. stp. stp. stp.
  set (hxy := hammingDistCC (cVal x) (cVal y)) in *. destruct (hxy =? d) eqn:Eh; [sts; reflexivity|]. apply Z.eqb_neq in Eh. cbv iota.
  set (es := [EFrom (full_v d w); ECons (hammingDistVC d w (cVal x) (hd w (AsString y)))]).
  do 5 stp.
  for_new "i" (NC "ncnf") HN (fun i => emitp (ESem [[Ln (hd w (AsString y)) (d - 1) i]])) from (emitsp es (TrueCNF, vm)) to (d + 1).
  - rewrite emit_map. sts. apply says_emits. rewrite <- emitsp_start, emitsp_app. reflexivity.
  - sts. endbody.
Qed.

Lemma go_LehCCV n c1 c2 v k1 :
  (levels s + 5 <= n)%nat -> (Dim M + 4 <= n)%nat ->
  says g (ENC n "leh.ConstConstVar.Encoding" (LehCCV c1 c2 v k1)) (enc_atom (LehCCV c1 c2 v k1) C).
Proof.
  destruct k1 as [hd|].
  2:{ enter src_leh_ConstConstVar_Encoding. sts. reflexivity. }
  enter src_leh_ConstConstVar_Encoding. stp. stp. stp. const c1 x. const c2 y.
  scopevar v w. cbn [rbind]. stp. stp. stp.
  destruct (ValidateConstsDim (Dim M) [x; y]) as [e|] eqn:V; unfold guard; [sts; reflexivity|].
  pose proof (valid_lens _ _ x V ltac:(now left)) as Lx.
  pose proof (valid_lens _ _ y V ltac:(right; now left)) as Ly.
  pose proof (valid_one _ _ Lx) as Vx. pose proof (valid_one _ _ Ly) as Vy. stp. stp.
  destruct (IsFull x) eqn:Fx; cbn [negb orb]; [|sts; reflexivity].
  destruct (IsFull y) eqn:Fy; cbn [negb orb]; [|sts; reflexivity]. cbv iota. stp.
  pose proof (hammingDistCC_le (cVal x) (cVal y)) as B. rewrite Lx in B.
  pose proof (eq_trans Lx (eq_sym Ly)) as Lxy.
  cbv zeta. stp. stp. stp.
  set (hxy := hammingDistCC (cVal x) (cVal y)) in *. destruct (hxy =? 0) eqn:Eh; [sts; reflexivity|]. apply Z.eqb_neq in Eh. cbv iota.
  set (es := [EFrom (full_v d w); ECons (hammingDistVC d w (cVal x) (hd w (AsString x)))]).
  do 5 stp.
  for_new "i" (NC "ncnf") HN (fun i => emitp (ESem [[Ln (hd w (AsString x)) (d - 1) i]])) from (emitsp es (TrueCNF, vm)) to hxy.
  - rewrite emit_map. sts. apply says_emits. rewrite <- emitsp_start, emitsp_app. reflexivity.
  - sts. endbody.
Qed.

Lemma go_LehCCC n c1 c2 c3 :
  (levels s + 5 <= n)%nat -> (Dim M + 4 <= n)%nat ->
  says g (ENC n "leh.ConstConstConst.Encoding" (LehCCC c1 c2 c3)) (enc_atom (LehCCC c1 c2 c3) C).
Proof.
  enter src_leh_ConstConstConst_Encoding. stp. const c1 x. const c2 y. const c3 z.
  destruct (ValidateConstsDim (Dim M) [x; y; z]) as [e|] eqn:V; unfold guard; [sts; reflexivity|].
  pose proof (valid_lens _ _ x V ltac:(now left)) as Lx.
  pose proof (valid_lens _ _ y V ltac:(right; now left)) as Ly.
  pose proof (valid_lens _ _ z V ltac:(right; right; now left)) as Lz. stp. stp.
  destruct (IsFull x) eqn:Fx; cbn [negb orb]; [|sts; reflexivity].
  destruct (IsFull y) eqn:Fy; cbn [negb orb]; [|sts; reflexivity].
  destruct (IsFull z) eqn:Fz; cbn [negb orb]; [|sts; reflexivity]. cbv iota. stp.
  pose proof (eq_trans Lx (eq_sym Ly)) as Lxy. pose proof (eq_trans Lx (eq_sym Lz)) as Lxz.
  do 5 stp.
  destruct (_ <? _); sts; reflexivity.
Qed.
End Leh.
