(* The functions of cnf/cnf.go, run from their source text, return what the
   functions of Cnf.v return. *)
From Verif Require Import GoBase Cnf Query Walk Atoms Logop GoLang GoSource SrcBase SrcLemmas.
Local Open Scope string_scope.
Local Open Scope Z_scope.
Local Open Scope list_scope.

(* cnf/cnf.go:309-314 *)
Lemma go_absInt n h v :
  (1 <= n)%nat -> gocall n "cnf.absInt" [VInt v] h = (Ok [VInt (absInt v)], h).
Proof.
  func src_cnf_absInt. st1. unfold absInt. destruct (0 <? v); sts; reflexivity.
Qed.
Global Hint Resolve go_absInt : gocall.

(* cnf/cnf.go:317-322 *)
Lemma go_maxInt n h a b :
  (1 <= n)%nat -> gocall n "cnf.maxInt" [VInt a; VInt b] h = (Ok [VInt (maxInt a b)], h).
Proof.
  func src_cnf_maxInt. st1. unfold maxInt. destruct (b <? a); sts; reflexivity.
Qed.
Global Hint Resolve go_maxInt : gocall.

(* cnf/cnf.go:295-306 *)
Lemma go_maxVar n h cls :
  (2 <= n)%nat -> gocall n "cnf.maxVar" [v_clauses cls] h = (Ok [VInt (maxVar cls)], h).
Proof.
  func src_cnf_maxVar. sts.
  rng (fun t => [("topv", VInt t)])
    (fun (cl : clause) t => fold_left (fun topv v => if topv <? absInt v then absInt v else topv) cl t).
  - sts. reflexivity.
  - rng (fun t => [("topv", VInt t)])
      (fun v topv => if topv <? absInt v then absInt v else topv).
    + sts. reflexivity.
    + sts. destruct (s0 <? absInt a0); sts; reflexivity.
Qed.
Global Hint Resolve go_maxVar : gocall.

(* cnf/cnf.go:50-54 *)
Lemma go_FromClauses n h cls :
  (3 <= n)%nat ->
  gocall n "cnf.FromClauses" [v_clauses cls] h = (Ok [v_cnf (FromClauses cls)], h).
Proof. func src_cnf_FromClauses. sts. reflexivity. Qed.
Global Hint Resolve go_FromClauses : gocall.

(* cnf/cnf.go:58-60 *)
Lemma go_CNF_TopV n h c :
  (1 <= n)%nat -> gocall n "cnf.CNF.TopV" [v_cnf c] h = (Ok [VInt (TopV c)], h).
Proof. func src_cnf_CNF_TopV. sts. reflexivity. Qed.
Global Hint Resolve go_CNF_TopV : gocall.


Ltac same :=
  cbv beta iota zeta delta
    [v_cnf v_clauses v_clause v_feats AppendSemantics AppendConsistency TrueCNF FalseCNF
     NegClauses tv sClauses cClauses fst snd];
  rewrite ?map_app; cbn [map]; rewrite ?map_app; reflexivity.

(* cnf/cnf.go:172-179 *)
Lemma go_AppendSemantics n h c cls :
  (3 <= n)%nat ->
  gocall n "cnf.CNF.AppendSemantics" [v_cnf c; v_clauses cls] h
  = (Ok [v_cnf (AppendSemantics c cls)], h).
Proof. func src_cnf_CNF_AppendSemantics. sts. same. Qed.
Lemma go_AppendSemantics1 n h c cl :
  (3 <= n)%nat ->
  gocall n "cnf.CNF.AppendSemantics" [v_cnf c; VLst [v_clause cl]] h
  = (Ok [v_cnf (AppendSemantics c [cl])], h).
Proof. exact (go_AppendSemantics n h c [cl]). Qed.
Global Hint Resolve go_AppendSemantics go_AppendSemantics1 : gocall.

(* cnf/cnf.go:182-189 *)
Lemma go_AppendConsistency n h c cls :
  (3 <= n)%nat ->
  gocall n "cnf.CNF.AppendConsistency" [v_cnf c; v_clauses cls] h
  = (Ok [v_cnf (AppendConsistency c cls)], h).
Proof. func src_cnf_CNF_AppendConsistency. sts. same. Qed.
Global Hint Resolve go_AppendConsistency : gocall.

(* cnf/cnf.go:164-169 *)
Lemma go_Conjunction n h c oc :
  (4 <= n)%nat ->
  gocall n "cnf.CNF.Conjunction" [v_cnf c; v_cnf oc] h = (Ok [v_cnf (Conjunction c oc)], h).
Proof.
  func src_cnf_CNF_Conjunction. st1. st1.
  match goal with |- context [VStc "cnf.CNF" ?l] =>
    change (VStc "cnf.CNF" l) with
      (v_cnf (mkCNF (tv (AppendSemantics c (sClauses oc)))
                (sClauses (AppendSemantics c (sClauses oc))) (cClauses c))) end.
  sts. reflexivity.
Qed.
Global Hint Resolve go_Conjunction : gocall.

(* cnf/cnf.go:272-279 *)
Lemma go_hasEmpty n h c :
  (1 <= n)%nat ->
  gocall n "cnf.CNF.hasEmptySemanticClause" [v_cnf c] h
  = (Ok [VBool (hasEmptySemanticClause c)], h).
Proof.
  func src_cnf_CNF_hasEmptySemanticClause.
  erewrite plug_exec; [|eapply (ex_range_find _
    (fun _ (cl : clause) => if (length cl =? 0)%nat then Some [VBool true] else None)); [ev|]].
  - unfold hasEmptySemanticClause. generalize 0 as i.
    induction (sClauses c) as [|cl l IH]; intros i; cbn [rfind existsb].
    + sts. reflexivity.
    + destruct cl; cbn [length Nat.eqb orb]; [sts; reflexivity|apply IH].
  - intros i cl Hi Hn. red_env. st1. destruct cl; sts; reflexivity.
Qed.
Global Hint Resolve go_hasEmpty : gocall.

(* cnf/cnf.go:258-270 *)
Lemma go_TriviallyFalse n h c :
  (1 <= n)%nat ->
  gocall n "cnf.CNF.TriviallyFalse" [v_cnf c] h = (Ok [VBool (TriviallyFalse c)], h).
Proof.
  func src_cnf_CNF_TriviallyFalse.
  assert (E : forall l i, @rfind clause (list val)
    (fun _ cl => if (length cl =? 0)%nat then Some [VBool true] else None) i l
    = if existsb (fun cl : clause => (length cl =? 0)%nat) l then Some [VBool true] else None).
  { induction l as [|cl l IH]; intros i; cbn [rfind existsb]; [reflexivity|].
    destruct (length cl =? 0)%nat; [reflexivity|apply IH]. }
  unfold TriviallyFalse.
  erewrite plug_exec; [|eapply (ex_range_find _
    (fun _ (cl : clause) => if (length cl =? 0)%nat then Some [VBool true] else None)); [ev|]].
  - rewrite E. destruct (existsb _ (sClauses c)); [sts; reflexivity|]. st1.
    erewrite plug_exec; [|eapply (ex_range_find _
      (fun _ (cl : clause) => if (length cl =? 0)%nat then Some [VBool true] else None)); [ev|]].
    + rewrite E. destruct (existsb _ (cClauses c)); sts; reflexivity.
    + intros i cl Hi Hn. red_env. st1. destruct cl; sts; reflexivity.
  - intros i cl Hi Hn. red_env. st1. destruct cl; sts; reflexivity.
Qed.
Global Hint Resolve go_TriviallyFalse : gocall.

(* cnf/cnf.go:252-254 *)
Lemma go_TriviallyTrue n h c :
  (1 <= n)%nat ->
  gocall n "cnf.CNF.TriviallyTrue" [v_cnf c] h = (Ok [VBool (TriviallyTrue c)], h).
Proof.
  func src_cnf_CNF_TriviallyTrue. sts. unfold TriviallyTrue.
  destruct (sClauses c), (cClauses c); reflexivity.
Qed.
Global Hint Resolve go_TriviallyTrue : gocall.

(* cnf/cnf.go:246-248 *)
Lemma go_Clauses n h c :
  (1 <= n)%nat ->
  gocall n "cnf.CNF.Clauses" [v_cnf c] h
  = (Ok [v_clauses (sClauses c); v_clauses (cClauses c)], h).
Proof. func src_cnf_CNF_Clauses. sts. reflexivity. Qed.
Global Hint Resolve go_Clauses : gocall.

(* cnf/cnf.go:282-291 *)
Lemma go_clauseToDIMACS n h cl :
  (1 <= n)%nat ->
  gocall n "cnf.clauseToDIMACS" [v_clause cl] h = (Ok [VStr (clauseToDIMACS cl)], h).
Proof.
  func src_cnf_clauseToDIMACS. sts.
  rng (fun s => [("cString", VStr s)]) (fun v s => (s ++ itoa v ++ " ")%string).
  - sts. reflexivity.
  - sts. reflexivity.
Qed.
Global Hint Resolve go_clauseToDIMACS : gocall.

(* cnf/cnf.go:192-208 *)
Lemma go_ToBytes n h c :
  (2 <= n)%nat ->
  gocall n "cnf.CNF.ToBytes" [v_cnf c] h = (Ok [VStr (ToBytes c)], h).
Proof.
  func src_cnf_CNF_ToBytes. st1.
  rng (fun s => [("bString", VStr s)]) (fun cl b => (b ++ clauseToDIMACS cl ++ newline)%string).
  2:{ sts. reflexivity. }
  rng (fun s => [("bString", VStr s)]) (fun cl b => (b ++ clauseToDIMACS cl ++ newline)%string).
  2:{ sts. reflexivity. }
  sts. reflexivity.
Qed.
Global Hint Resolve go_ToBytes : gocall.

Lemma fold_snoc {A B} (f : A -> B) l acc :
  fold_left (fun s a => s ++ [f a]) l acc = acc ++ map f l.
Proof.
  revert acc. induction l as [|x l IH]; intros acc; cbn; [now rewrite app_nil_r|].
  rewrite IH, <- app_assoc. reflexivity.
Qed.

(* cnf/cnf.go:150-160 *)
Lemma go_addNegationIFFClauses n h c lits :
  (1 <= n)%nat ->
  gocall n "cnf.CNF.addNegationIFFClauses" [v_cnf c; v_clause lits] h
  = (Ok [v_cnf (addNegationIFFClauses c lits)], h).
Proof.
  func src_cnf_CNF_addNegationIFFClauses. st1. st1.
  rng (fun cls => [("c", v_cnf (mkCNF (tv c + 1) (sClauses c) cls))])
    (fun lit cls => cls ++ [[- lit; tv c + 1]]).
  2:{ sts. same. }
  rewrite fold_snoc. sts.
  unfold addNegationIFFClauses. same.
Qed.
Global Hint Resolve go_addNegationIFFClauses : gocall.


(* cnf/cnf.go:109-133, a turn of the loop *)
Definition ts_step (c : CNF) (h : heap) (_ : Z) (cl : clause) (s : Z * list clause * clause)
  : Z * list clause * clause + (res flow * ms) :=
  let '(t, cls, lits) := s in
  match cl with
  | [] => inr (Ok (FRet None),
            mkMs [[("enclits", v_clause lits); ("clauses", v_clauses cls);
                   ("c", v_cnf (mkCNF t [] (cClauses c))); ("tv", VInt t)]] [] h)
  | [l] => inl (t, cls, lits ++ [- l])
  | _ => inl (t + 1, (cls ++ map (fun lit => [- lit; - (t + 1)]) cl) ++ [cl ++ [t + 1]],
              lits ++ [t + 1])
  end.

Lemma ts_run c h : forall l i t cls lits,
  match tseytin_loop l t cls lits with
  | inr p => rrun (ts_step c h) i l (t, cls, lits) = inl p
  | inl t' => exists cls' lits', rrun (ts_step c h) i l (t, cls, lits)
      = inr (Ok (FRet None),
            mkMs [[("enclits", v_clause lits'); ("clauses", v_clauses cls');
                   ("c", v_cnf (mkCNF t' [] (cClauses c))); ("tv", VInt t')]] [] h)
  end.
Proof.
  induction l as [|cl l IH]; intros i t cls lits; [reflexivity|].
  cbn [tseytin_loop rrun]. unfold ts_step at 1 3. destruct cl as [|x [|y cl]].
  - exists cls, lits. reflexivity.
  - apply IH.
  - apply IH.
Qed.

(* cnf/cnf.go:105-146 *)
Lemma go_tseytinNegation n h c t0 :
  (2 <= n)%nat ->
  gocall n "cnf.CNF.tseytinNegation" [v_cnf c; VInt t0] h
  = (Ok [v_cnf (tseytinNegation c t0)], h).
Proof.
  func src_cnf_CNF_tseytinNegation. st1. st1.
  rngr (fun s : Z * list clause * clause =>
          [("tv", VInt (fst (fst s))); ("clauses", v_clauses (snd (fst s)));
           ("enclits", v_clause (snd s))])
    (ts_step c h) (@pair _ clause (t0, @nil clause) []).
  2:{ destruct s as [[t cls] lits]. cbn [fst snd ts_step]. destruct a as [|l [|l' cl]].
      - split; [|exact Logic.I]. st1. brT. sts. reflexivity.
      - exists FNext. split; [now left|]. st1. brF. sts. brF. sts. same.
      - exists FNext. split; [now left|]. st1. brF. sts. brT. st1. st1.
        rng (fun cls => [("clauses", v_clauses cls)]) (fun lit cls => cls ++ [[- lit; - (t + 1)]]).
        2:{ sts. same. }
        sts. rewrite fold_snoc. same. }
  pose proof (ts_run c h (sClauses c) 0 t0 [] []) as E. unfold tseytinNegation.
  destruct (tseytin_loop (sClauses c) t0 [] []) as [t'|[[t' cls] lits]].
  - destruct E as (cls' & lits' & ->). sts. reflexivity.
  - rewrite E. cbn [fst snd]. sts.
    replace (Z.of_nat (length lits) =? 1) with (length lits =? 1)%nat by lia.
    destruct (length lits =? 1)%nat.
    + sts. same.
    + do 4 st1.
      replace (VStc "cnf.CNF" _) with
        (v_cnf (mkCNF t' (sClauses c) (cClauses c ++ cls))) by same.
      sts. reflexivity.
Qed.
Global Hint Resolve go_tseytinNegation : gocall.

(* cnf/cnf.go:66-101 *)
Lemma go_Negate n h c o :
  (4 <= n)%nat ->
  gocall n "cnf.CNF.Negate" [v_cnf c; v_feats (match o with Some k => [k] | None => [] end)] h
  = (Ok [v_cnf (Negate c o)], h).
Proof.
  func src_cnf_CNF_Negate.
  assert (Ea : gocall n "cnf.CNF.AppendSemantics" [v_cnf c; VLst [VLst []]] h
               = (Ok [v_cnf (AppendSemantics c [[]])], h))
    by (apply (go_AppendSemantics n h c [[]]); lia).
  st1. st1. destruct o as [k|]; st1; [brT|brF].
  all: sts; unfold Negate;
    match goal with |- context [("topv", VInt ?x)] => set (t := x) end.
  all: replace (Z.of_nat (length (sClauses c)) =? 0)
         with (match sClauses c with [] => true | _ => false end)
         by (destruct (sClauses c); cbn [length]; lia).
  all: destruct (sClauses c) as [|cl l] eqn:Es.
  1,3: sts; reflexivity.
  all: sts; destruct (hasEmptySemanticClause c); [sts; reflexivity|].
  all: do 5 st1; clearbody t;
    match goal with |- context [VStc "cnf.CNF" ?l] =>
      change (VStc "cnf.CNF" l) with (v_cnf (mkCNF t (sClauses c) (cClauses c))) end;
    sts; rewrite Es; reflexivity.
Qed.
Global Hint Resolve go_Negate : gocall.
