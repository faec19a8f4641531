(* C63, continued: the functions that compare constants, called with constants of
   any lengths.  In the library the lengths have been checked before (so that the
   errors below never reach a caller); here they have not. *)
From Verif Require Import GoBase GoLemmas Cnf Query Walk Atoms Logop GoLang GoSource SrcBase SrcLemmas SrcCnf SrcQuery SrcCtx SrcPred SrcNode SrcExt SrcDfs SrcLeh SrcLogop.
Local Open Scope string_scope.
Local Open Scope Z_scope.
Local Open Scope list_scope.

(* query/extensions/leh/utils.go:13-19 *)
Definition mismatch_err (a b : nat) : string :=
  "Mismatched constant dimensions: " ++ itoa (Z.of_nat a) ++ " - " ++ itoa (Z.of_nat b).

Lemma app_empty s : (s ++ "")%string = s.
Proof. induction s as [|a s IH]; [reflexivity|]. cbn. now rewrite IH. Qed.
Lemma of_nat_eqb a b : (Z.of_nat a =? Z.of_nat b) = (a =? b)%nat.
Proof. destruct (a =? b)%nat eqn:E; [apply Nat.eqb_eq in E; subst; apply Z.eqb_refl|]. apply Nat.eqb_neq in E. apply Z.eqb_neq. lia. Qed.
Theorem C63_helpers : forall n h c l1 l2, (1 <= n)%nat ->
  gocall n "dfs.leafCompare" [v_const c; v_const l1; v_const l2] h
  = (match leafCompare c l1 l2 with Ok b => Ok [VBool b; VNil] | Err e => Ok [VBool false; VErr e []] | _ => Panic end, h) /\
  gocall n "leh.hammingDistCC" [v_const c; v_const l1] h
  = (if Nat.eqb (length (cVal c)) (length (cVal l1)) then Ok [VInt (hammingDistCC (cVal c) (cVal l1)); VNil]
     else Ok [VInt 0; VErr (mismatch_err (length (cVal c)) (length (cVal l1))) []], h).
Proof.
  intros n h c l1 l2 Hn. split.
  - destruct (leafCompare c l1 l2) as [b|e| |] eqn:E.
    + now apply go_leafCompare.
    + revert E. unfold leafCompare. destruct (_ || _) eqn:D; [|discriminate]. intros [= <-]. revert Hn.
      func src_dfs_leafCompare. stp.
      assert (T : (if (if Z.of_nat (length (cVal c)) =? Z.of_nat (length (cVal l1)) then false else true) then true
                   else if Z.of_nat (length (cVal c)) =? Z.of_nat (length (cVal l2)) then false else true) = true).
      { rewrite !of_nat_eqb. destruct (_ =? _)%nat; [destruct (_ =? _)%nat; [discriminate D|reflexivity]|reflexivity]. }
      rewrite T. sts. reflexivity.
    + unfold leafCompare in E. destruct (_ || _); discriminate.
    + unfold leafCompare in E. destruct (_ || _); discriminate.
  - destruct (Nat.eqb _ _) eqn:E.
    + apply Nat.eqb_eq in E. now apply go_hammingDistCC.
    + revert Hn. func src_leh_hammingDistCC. stp. rewrite of_nat_eqb, E. sts. rewrite app_empty. reflexivity.
Qed.
Print Assumptions C63_helpers.

Definition qc (l : list Z) : QConst := mkQConst "" l.
Example C63_helpers_case : forall h,
  gocall 1 "dfs.leafCompare" [v_const (qc [ONE; BOT]); v_const (qc [ONE; ONE; ZERO]); v_const (qc [ZERO; ONE])] h
  = (Ok [VBool false; VErr "Invalid comparison of constants of different dim" []], h) /\
  gocall 1 "leh.hammingDistCC" [v_const (qc [ONE; BOT]); v_const (qc [ONE; ONE; ZERO])] h
  = (Ok [VInt 0; VErr "Mismatched constant dimensions: 2 - 3" []], h) /\
  gocall 1 "leh.hammingDistCC" [v_const (qc [ONE; ZERO]); v_const (qc [ONE; ONE])] h = (Ok [VInt 1; VNil], h).
Proof. intros h. vm_compute. repeat split. Qed.

(* query/instances.go:32-40: make panics for a negative length. *)
Theorem C61_negative_dim : forall n h z, (1 <= n)%nat -> z < 0 -> fst (gocall n "query.AllBotConst" [VInt z] h) = Panic.
Proof.
  intros n h z Hn Hz. revert Hn. func src_query_AllBotConst.
  assert (E : (z <? 0) = true) by lia.
  erewrite plug_panic; [apply fst_panic|]. eapply ex_assign_panic. cbn. now rewrite E.
Qed.
Print Assumptions C61_negative_dim.
