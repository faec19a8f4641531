(* compute/boolcomb.go and compute/optimum.go against the model. *)
From Verif Require Import GoBase GoLemmas Cnf Query Walk Atoms Logop Compute GoLang GoSource SrcBase SrcLemmas SrcCnf SrcQuery SrcCtx SrcPred SrcNode SrcIter SrcLogop SrcValues SrcSolver.
Local Open Scope string_scope.
Local Open Scope Z_scope.
Local Open Scope list_scope.

(* compute/boolcomb.go:17-63 *)
Fixpoint v_comb (k : comb) : val :=
  match k with
  | CNil => VNil
  | CAtom q neg => VStc "compute.QDTFAtom" [("Query", v_query q); ("Negated", VBool neg)]
  | CAnd l => VStc "compute.AndCombinator" [("[]", VLst (map v_comb l))]
  | COr l => VStc "compute.OrCombinator" [("[]", VLst (map v_comb l))]
  end.
(* the highest query, and the depth of calls *)
Fixpoint cheight (k : comb) : nat :=
  match k with
  | CNil => 0
  | CAtom q _ => qheight q
  | CAnd l | COr l => fold_right (fun k h => Nat.max (cheight k) h) 0%nat l
  end.
Fixpoint cdepth (k : comb) : nat :=
  match k with
  | CNil | CAtom _ _ => 0
  | CAnd l | COr l => S (fold_right (fun k h => Nat.max (cdepth k) h) 0%nat l)
  end.
Section CombInd.
  Variable P : comb -> Prop.
  Hypothesis HN : P CNil.
  Hypothesis HA : forall q neg, P (CAtom q neg).
  Hypothesis HAnd : forall l, Forall P l -> P (CAnd l).
  Hypothesis HOr : forall l, Forall P l -> P (COr l).
  Fixpoint comb_ind' (k : comb) : P k :=
    match k with
    | CNil => HN
    | CAtom q neg => HA q neg
    | CAnd l => HAnd l ((fix go l := match l return Forall P l with [] => Forall_nil _ | k :: r => Forall_cons k (comb_ind' k) (go r) end) l)
    | COr l => HOr l ((fix go l := match l return Forall P l with [] => Forall_nil _ | k :: r => Forall_cons k (comb_ind' k) (go r) end) l)
    end.
End CombInd.

(* the files after m Steps *)
Fixpoint afters (o : os) (t m : nat) (fs : list (string * string)) : list (string * string) :=
  match m with O => fs | S m => afters o (S t) m (after o t fs) end.
Lemma afters_app o : forall m t m' fs, afters o t (m + m') fs = afters o (t + m) m' (afters o t m fs).
Proof.
  induction m as [|m IH]; intros t m' fs; cbn [afters Nat.add]; [now rewrite Nat.add_0_r|]. rewrite IH. f_equal. lia.
Qed.
Lemma reads_app E o path k t m : reads E o path k t -> reads E o path (k + m) (t + m).
Proof. intros H j. specialize (H (m + j)%nat). now rewrite !Nat.add_assoc in H. Qed.

(* What a computation leaves in the heap: m Steps were taken; their temporary files
   are gone. *)
Definition leaves (path : string) (o : os) (g1 g2 : heap) (t : nat) (fs : list (string * string)) (calls : nat)
    (L K : nat) (M : model) (sv : solver) (c : ctx) (h : heap) : Prop :=
  exists m w k, bs_calls sv = (calls + m)%nat /\ kept L K M c /\
    h = v_ctx c :: VSys (osr o (t + m) (afters o t m fs) w) :: g1 ++ v_solver path (bs_output sv) :: g2 ++ k.

Section StepCall.
  Variables (n L : nat) (E : env) (M : model) (o : os) (path : string) (g1 g2 : heap) (s : scoper) (vm : varman).
  Variables (out : string) (k t : nat) (fs : list (string * string)) (w : nat).
  Variables (q : query) (e : expr) (en : list GoLang.frame) (d : list (list stmt)).
  Let st := mkMs en d (hc s M (VSys (osr o t fs w) :: g1 ++ v_solver path out :: g2) vm).
  Hypothesis R : reads E o path k t.
  Hypothesis K : kept L (length (scopes s)) M (mkCtx s vm M).
  Hypothesis Hh : (length (scopes s) + qheight q <= L)%nat.
  Hypothesis Hn : (base_fuel L M + 2 * qheight q + 1 <= n)%nat.
  Hypothesis He : EV n e st = (Ok (v_query q), st).
  Hypothesis Hs : elookup "solver" en = Some (VPtr (S (S (length g1)))).
  Hypothesis Hc : elookup "ctx" en = Some (VPtr 0).
  Lemma ev_Step :
    let '(r, sv, c) := Step E q (mkSolver out k) (mkCtx s vm M) in
    let p := EV n (XMeth (XVar "solver") "Step" [e; XVar "ctx"]) st in
    match r with
    | SPanic => fst p = Panic
    | SHang => fst p = Hang
    | _ => exists h, p = (Ok (v_sres r), mkMs en d h) /\ leaves path o g1 g2 t fs k L (length (scopes s)) M sv c h
    end.
  Proof.
    pose proof (go_Step n L q E s vm M (g1 ++ v_solver path out :: g2) o path out k t fs w R K Hh Hn) as X.
    assert (C : bs_calls (snd (fst (Step E q (mkSolver out k) (mkCtx s vm M)))) = (k + 1)%nat).
    { unfold Step. cbn [bs_calls]. rewrite Nat.add_1_r. destruct (e_tmp E k); cbn [negb]; [|reflexivity].
      destruct (enc q (mkCtx s vm M)) as [[f|er| |] c]; try reflexivity. destruct (ToFile _ _ f); try reflexivity.
      destruct (runSolver _) as [[code b]| | |]; try reflexivity. now destruct (code =? 20). }
    assert (KS : fst (fst (Step E q (mkSolver out k) (mkCtx s vm M))) <> SHang ->
                 kept L (length (scopes s)) M (snd (Step E q (mkSolver out k) (mkCtx s vm M)))).
    { pose proof (keep_enc q L (length (scopes s)) M Hh _ K) as KE.
      unfold Step. cbn [bs_calls]. destruct (e_tmp E k); cbn [negb]; [|intros _; exact K].
      destruct (enc q (mkCtx s vm M)) as [[f|er| |] c]; cbn [fst snd] in *; intros HH; try (apply KE; discriminate).
      - specialize (KE ltac:(discriminate)). destruct (ToFile _ _ f); try exact KE.
        destruct (runSolver _) as [[code b]| | |]; try exact KE. now destruct (code =? 20).
      - now elim HH. }
    assert (EM : EV n (XMeth (XVar "solver") "Step" [e; XVar "ctx"]) st
      = match gocall n "compute.binSolver.Step" [v_solver path out; v_query q; VPtr 0] (hc s M (VSys (osr o t fs w) :: g1 ++ v_solver path out :: g2) vm) with
        | (Ok (v :: vs), h) => (Ok (one vs), mkMs en d (heap_set h (S (S (length g1))) v))
        | (Ok [], h) => (stuck, mkMs en d h)
        | (Err x, h) => (Err x, mkMs en d h)
        | (Panic, h) => (Panic, mkMs en d h)
        | (Hang, h) => (Hang, mkMs en d h)
        end).
    { eapply eq_trans; [eapply ev_meth; [apply ev_var; exact Hs | eapply xm_cons; [exact He | eapply xm_cons; [apply ev_var; exact Hc | apply xm_nil]] | apply surjective_pairing]|].
      rewrite <- surjective_pairing.
      unfold st, x_method, xbind, x_load. cbn [mHeap mEnv mDefers].
      change (hc s M (VSys (osr o t fs w) :: g1 ++ v_solver path out :: g2) vm)
        with ((v_ctx (mkCtx s vm M) :: VSys (osr o t fs w) :: g1) ++ v_solver path out :: g2).
      change (S (S (length g1))) with (length (v_ctx (mkCtx s vm M) :: VSys (osr o t fs w) :: g1)). rewrite heap_at.
      unfold method, own_method, v_solver. change (kind_of prog (dot "compute.binSolver" "Step")) with (Some true). cbv iota.
      unfold xbind, x_call, xret, xlift, x_store. cbn [mHeap mEnv mDefers].
      change (dot "compute.binSolver" "Step") with "compute.binSolver.Step"%string.
      fold gocall. destruct (gocall n "compute.binSolver.Step" _ _) as [[[|v vs]| | |] h]; reflexivity. }
    rewrite EM. clear EM.
    destruct (Step E q (mkSolver out k) (mkCtx s vm M)) as [[r sv] c]. cbn [fst snd] in C, KS. cbn [steps_as] in X.
    destruct (gocall n "compute.binSolver.Step" _ _) as [p h].
    assert (HH : (exists w0 k0, (p, h) = (Ok [v_solver path (bs_output sv); v_sres r],
       v_ctx c :: VSys (osr o (S t) (after o t fs) w0) :: (g1 ++ v_solver path out :: g2) ++ k0)) -> r <> SHang ->
       exists h0, match p with
         | Ok [] => (stuck, mkMs en d h)
         | Ok (v :: vs) => (Ok (one vs), mkMs en d (heap_set h (S (S (length g1))) v))
         | Err x => (Err x, mkMs en d h)
         | Panic => (Panic, mkMs en d h)
         | Hang => (Hang, mkMs en d h)
         end = (Ok (v_sres r), mkMs en d h0) /\ leaves path o g1 g2 t fs k L (length (scopes s)) M sv c h0).
    { intros (w0 & k0 & [= -> ->]) Hr. eexists. split; [cbn [one]; reflexivity|]. exists 1%nat, w0, k0.
      split; [exact C|]. split; [now apply KS|]. rewrite Nat.add_1_r. cbn [afters].
      rewrite <- app_assoc. cbn [app].
      exact (heap_put (v_ctx c :: VSys (osr o (S t) (after o t fs) w0) :: g1) (v_solver path out) (g2 ++ k0) (v_solver path (bs_output sv))). }
    destruct r; try (apply HH; [exact X | discriminate]); cbn [fst] in X; now rewrite X.
  Qed.
End StepCall.

(* ---- combinators ---- *)

(* a method of a nil interface panics *)
Definition go_sat (n : nat) (k : comb) (l : nat) (h : heap) : res (list val) * heap :=
  match k with
  | CNil => (Panic, h)
  | _ => gocall n (type_of (v_comb k) ++ ".Sat") [v_comb k; VPtr 0; VPtr l] h
  end.
Definition sats_as (path : string) (o : os) (g1 g2 : heap) (t : nat) (fs : list (string * string)) (calls : nat)
    (L K : nat) (M : model) (p : res (list val) * heap) (x : res bool * solver * ctx) : Prop :=
  let '(r, sv, c) := x in
  match r with
  | Ok b => exists h, p = (Ok [VBool b; VNil], h) /\ leaves path o g1 g2 t fs calls L K M sv c h
  | Err e => exists h, p = (Ok [VBool false; VErr e []], h) /\ leaves path o g1 g2 t fs calls L K M sv c h
  | Panic => fst p = Panic
  | Hang => fst p = Hang
  end.
Definition says_sat (k : comb) : Prop :=
  forall E L n s vm M g1 g2 o path out calls t fs w,
    reads E o path calls t -> kept L (length (scopes s)) M (mkCtx s vm M) ->
    (length (scopes s) + cheight k <= L)%nat ->
    (base_fuel L M + 2 * cheight k + cdepth k + 2 <= n)%nat ->
    sats_as path o g1 g2 t fs calls L (length (scopes s)) M
      (go_sat n k (S (S (length g1))) (hc s M (VSys (osr o t fs w) :: g1 ++ v_solver path out :: g2) vm))
      (CombSat E k (mkSolver out calls) (mkCtx s vm M)).

Lemma ex_assign_hang n l e st st1 : EV n e st = (Hang, st1) -> EX n (SAssign [l] [e]) st = (Hang, st1).
Proof. intros H. cbn [exec x_map]. unfold xbind. now rewrite H. Qed.

Lemma sat_atom q neg : says_sat (CAtom q neg).
Proof.
  intros E L n s vm M g1 g2 o path out calls t fs w R K Hh Hn. cbn [cheight cdepth] in *. unfold go_sat.
  cbn [v_comb type_of]. change ("compute.QDTFAtom" ++ ".Sat")%string with "compute.QDTFAtom.Sat"%string.
  destruct n as [|n]; [lia|]. cbn [CombSat].
  func_at src_compute_QDTFAtom_Sat.
  pose proof (ev_Step n L E M o path g1 g2 s vm out calls t fs w q (XSel (XVar "a") "Query")
    [[("a"%string, VStc "compute.QDTFAtom" [("Query"%string, v_query q); ("Negated"%string, VBool neg)]); ("ctx"%string, VPtr 0); ("solver"%string, VPtr (S (S (length g1))))]] []
    R K Hh ltac:(lia) ltac:(ev) eq_refl eq_refl) as X.
  destruct (Step E q (mkSolver out calls) (mkCtx s vm M)) as [[r sv] c].
  destruct r; cbn [sats_as v_sres] in *.
  - destruct X as (h & X & Y). exists h. split; [|exact Y].
    erewrite plug_step; [|eapply ex_assign; [exact X | asg]]. sts. reflexivity.
  - destruct X as (h & X & Y). exists h. split; [|exact Y].
    erewrite plug_step; [|eapply ex_assign; [exact X | asg]]. sts. reflexivity.
  - destruct X as (h & X & Y). exists h. split; [|exact Y].
    erewrite plug_step; [|eapply ex_assign; [exact X | asg]]. sts. reflexivity.
  - destruct (EV n (XMeth _ _ _) _) as [p1 st1] eqn:EV1. cbn [fst] in X. subst p1.
    erewrite plug_panic; [apply fst_panic | eapply ex_assign_panic; exact EV1].
  - destruct (EV n (XMeth _ _ _) _) as [p1 st1] eqn:EV1. cbn [fst] in X. subst p1.
    erewrite plug_hang; [apply fst_hang | eapply ex_assign_hang; exact EV1].
Qed.

Lemma comb_nil k : k = CNil \/ k <> CNil.
Proof. destruct k; [now left|right; discriminate..]. Qed.
Lemma go_sat_some n k l h : k <> CNil -> go_sat n k l h = gocall n (type_of (v_comb k) ++ ".Sat") [v_comb k; VPtr 0; VPtr l] h.
Proof. now destruct k. Qed.
Lemma type_comb k : k <> CNil -> exists t fs, v_comb k = VStc t fs /\ kind_of prog (dot t "Sat") = Some false.
Proof. destruct k; [now intros []|..]; intros _; eexists _, _; (split; [reflexivity | vm_compute; reflexivity]). Qed.
Lemma ev_Sat n k l env d h :
  elookup "elem" env = Some (v_comb k) -> elookup "ctx" env = Some (VPtr 0) -> elookup "solver" env = Some (VPtr l) ->
  EV n (XMeth (XVar "elem") "Sat" [XVar "ctx"; XVar "solver"]) (mkMs env d h)
  = (with_ one (fst (go_sat n k l h)), mkMs env d (snd (go_sat n k l h))).
Proof.
  intros H1 H2 H3. eapply ev_meth; [eapply ev_var; exact H1 | eapply xm_cons; [eapply ev_var; exact H2 | eapply xm_cons; [eapply ev_var; exact H3 | apply xm_nil]]|].
  destruct (comb_nil k) as [->|NN]; [reflexivity|]. rewrite go_sat_some by exact NN. destruct (type_comb k NN) as (t & fs & E & K). rewrite E. cbn [type_of].
  change (t ++ ".Sat")%string with (dot t "Sat").
  unfold x_method, method, own_method. rewrite K. unfold xbind, x_call. cbn [mHeap mEnv mDefers].
  fold gocall. destruct (gocall n (dot t "Sat") (VStc t fs :: [VPtr 0; VPtr l]) h) as [[vs| | |] h']; reflexivity.
Qed.

Lemma leaves_trans path o g1 g2 t fs calls L K M m k sv c h :
  leaves path o g1 (g2 ++ k) (t + m) (afters o t m fs) (calls + m) L K M sv c h ->
  leaves path o g1 g2 t fs calls L K M sv c h.
Proof.
  intros (m' & w & k' & H1 & H2 & ->). exists (m + m')%nat, w, (k ++ k').
  split; [lia|]. split; [exact H2|]. now rewrite afters_app, Nat.add_assoc, <- app_assoc.
Qed.

(* AndCombinator goes on while b = true, OrCombinator while b = false *)
Fixpoint comb_list (E : env) (b : bool) (l : list comb) (s : solver) (c : ctx) : res bool * solver * ctx :=
  match l with
  | [] => (Ok b, s, c)
  | e :: r =>
      match CombSat E e s c with
      | (Ok x, s, c) => if Bool.eqb x b then comb_list E b r s c else (Ok x, s, c)
      | other => other
      end
  end.
Lemma comb_and E : forall l s c, CombSat E (CAnd l) s c = comb_list E true l s c.
Proof.
  induction l as [|e l IH]; intros s c; [reflexivity|].
  change (CombSat E (CAnd (e :: l)) s c) with
    (match CombSat E e s c with (Ok true, s, c) => CombSat E (CAnd l) s c | other => other end).
  cbn [comb_list]. destruct (CombSat E e s c) as [[[[|]| | |] s'] c']; try reflexivity; apply IH.
Qed.
Lemma comb_or E : forall l s c, CombSat E (COr l) s c = comb_list E false l s c.
Proof.
  induction l as [|e l IH]; intros s c; [reflexivity|].
  change (CombSat E (COr (e :: l)) s c) with
    (match CombSat E e s c with (Ok false, s, c) => CombSat E (COr l) s c | other => other end).
  cbn [comb_list]. destruct (CombSat E e s c) as [[[[|]| | |] s'] c']; try reflexivity; apply IH.
Qed.
Definition comb_body (b : bool) : list stmt :=
  [SAssign [LNew "sat"; LNew "err"] [XMeth (XVar "elem") "Sat" [XVar "ctx"; XVar "solver"]];
   SIf [] (XBin ONe (XVar "err") XNil) [SReturn [XBool false; XVar "err"]] [];
   if b then SIf [] (XNot (XVar "sat")) [SReturn [XBool false; XNil]] []
   else SIf [] (XVar "sat") [SReturn [XBool true; XNil]] []].
Definition turns_as (path : string) (o : os) (g1 g2 : heap) (t : nat) (fs : list (string * string)) (calls : nat)
    (L K : nat) (M : model) (en : list GoLang.frame) (b : bool) (p : res flow * ms) (x : res bool * solver * ctx) : Prop :=
  let '(r, sv, c) := x in
  match r with
  | Ok x => exists h, p = (Ok (if Bool.eqb x b then FNext else FRet (Some [VBool x; VNil])), mkMs en [] h)
                      /\ leaves path o g1 g2 t fs calls L K M sv c h
  | Err e => exists h, p = (Ok (FRet (Some [VBool false; VErr e []])), mkMs en [] h) /\ leaves path o g1 g2 t fs calls L K M sv c h
  | Panic => fst p = Panic
  | Hang => fst p = Hang
  end.
Lemma comb_loop E o path g1 M L n (b : bool) (rv : val) H D :
  (base_fuel L M + 2 * H + D + 2 <= n)%nat ->
  forall l i s vm g2 out calls t fs w,
  let en := [[(if b then "ac" else "oc", rv)%string; ("ctx"%string, VPtr 0); ("solver"%string, VPtr (S (S (length g1))))]] in
  Forall (fun k => says_sat k /\ (cheight k <= H)%nat /\ (cdepth k <= D)%nat) l ->
  reads E o path calls t -> kept L (length (scopes s)) M (mkCtx s vm M) ->
  (length (scopes s) + H <= L)%nat ->
  turns_as path o g1 g2 t fs calls L (length (scopes s)) M en b
    (range_loop
       (fun p s => plug n [KPop; KPop] (run_block (EX n) None (comb_body b)
           (push [] (push (bind_name "_" (fst p) (bind_name "elem" (snd p) [])) s))))
       (indexed i (map v_comb l)) (mkMs en [] (hc s M (VSys (osr o t fs w) :: g1 ++ v_solver path out :: g2) vm)))
    (comb_list E b l (mkSolver out calls) (mkCtx s vm M)).
Proof.
  intros Hn. induction l as [|e l IH]; intros i s vm g2 out calls t fs w en F R K Hh.
  - cbn [comb_list map indexed range_loop turns_as]. rewrite Bool.eqb_reflx.
    exists (hc s M (VSys (osr o t fs w) :: g1 ++ v_solver path out :: g2) vm). split; [reflexivity|].
    exists 0%nat, w, []. cbn [bs_calls bs_output afters]. rewrite !Nat.add_0_r, app_nil_r.
    split; [reflexivity|]. split; [exact K | reflexivity].
  - cbn [comb_list map indexed range_loop fst snd]. apply Forall_cons_iff in F as [(F1 & F2 & F3) F].
    specialize (F1 E L n s vm M g1 g2 o path out calls t fs w R K ltac:(lia) ltac:(lia)).
    destruct (CombSat E e (mkSolver out calls) (mkCtx s vm M)) as [[r sv] c].
    assert (HB : turns_as path o g1 g2 t fs calls L (length (scopes s)) M en b
       (plug n [KPop; KPop] (run_block (EX n) None (comb_body b)
           (push [] (push (bind_name "_" (VInt i) (bind_name "elem" (v_comb e) [])) (mkMs en [] (hc s M (VSys (osr o t fs w) :: g1 ++ v_solver path out :: g2) vm))))))
       (r, sv, c)).
    { set (h := hc s M (VSys (osr o t fs w) :: g1 ++ v_solver path out :: g2) vm) in *. clearbody h.
      unfold comb_body, en. destruct b.
      - red_env. pose proof (fun env d => ev_Sat n e (S (S (length g1))) env d h) as ES. destruct r as [x|er| |]; cbn [sats_as turns_as] in F1 |- *.
        + destruct F1 as (h1 & F1 & Y). exists h1. split; [|exact Y].
          erewrite sub_ok; [|apply ES; reflexivity|exact F1|asg|asg].
          sts. destruct x; sts; reflexivity.
        + destruct F1 as (h1 & F1 & Y). exists h1. split; [|exact Y].
          erewrite sub_ok; [|apply ES; reflexivity|exact F1|asg|asg].
          sts. reflexivity.
        + erewrite plug_panic; [apply plug_fst_panic|]. eapply ex_assign2_panic. rewrite ES by reflexivity. rewrite F1. reflexivity.
        + erewrite plug_hang; [apply plug_fst_hang|]. eapply ex_assign2_hang. rewrite ES by reflexivity. rewrite F1. reflexivity.
      - red_env. pose proof (fun env d => ev_Sat n e (S (S (length g1))) env d h) as ES. destruct r as [x|er| |]; cbn [sats_as turns_as] in F1 |- *.
        + destruct F1 as (h1 & F1 & Y). exists h1. split; [|exact Y].
          erewrite sub_ok; [|apply ES; reflexivity|exact F1|asg|asg].
          sts. destruct x; sts; reflexivity.
        + destruct F1 as (h1 & F1 & Y). exists h1. split; [|exact Y].
          erewrite sub_ok; [|apply ES; reflexivity|exact F1|asg|asg].
          sts. reflexivity.
        + erewrite plug_panic; [apply plug_fst_panic|]. eapply ex_assign2_panic. rewrite ES by reflexivity. rewrite F1. reflexivity.
        + erewrite plug_hang; [apply plug_fst_hang|]. eapply ex_assign2_hang. rewrite ES by reflexivity. rewrite F1. reflexivity. }
    unfold xbind. cbv beta. cbn [fst snd].
    destruct (plug n [KPop; KPop] _) as [p st1]. destruct r as [x|er| |]; cbn [turns_as] in HB |- *.
    + destruct HB as (h1 & [= -> ->] & Y). destruct (Bool.eqb x b) eqn:EB.
      * destruct Y as (m & w1 & k1 & Y1 & Y2 & ->). destruct c as [s1 vm1 M1]. assert (M1 = M) by apply Y2. subst M1.
        assert (Es : length (scopes s1) = length (scopes s)) by apply Y2. rewrite <- Es in Y2.
        specialize (IH (i + 1) s1 vm1 (g2 ++ k1) (bs_output sv) (calls + m)%nat (t + m)%nat (afters o t m fs) w1 F (reads_app _ _ _ _ _ _ R) Y2 ltac:(lia)).
        destruct sv as [out1 calls1]. cbn [bs_calls bs_output] in *. subst calls1.
        cbv zeta in IH. change (hc s1 M (VSys (osr o (t + m) (afters o t m fs) w1) :: g1 ++ v_solver path out1 :: g2 ++ k1) vm1)
          with (v_ctx (mkCtx s1 vm1 M) :: VSys (osr o (t + m) (afters o t m fs) w1) :: g1 ++ v_solver path out1 :: g2 ++ k1) in IH.
        destruct (comb_list E b l (mkSolver out1 (calls + m)) (mkCtx s1 vm1 M)) as [[[x'|er| |] sv'] c']; cbn [turns_as] in IH |- *.
        -- destruct IH as (h & IH & Y). exists h. split; [exact IH|]. rewrite Es in Y. exact (leaves_trans _ _ _ _ _ _ _ _ _ _ _ _ _ _ _ Y).
        -- destruct IH as (h & IH & Y). exists h. split; [exact IH|]. rewrite Es in Y. exact (leaves_trans _ _ _ _ _ _ _ _ _ _ _ _ _ _ _ Y).
        -- exact IH.
        -- exact IH.
      * cbn [turns_as]. rewrite EB. now exists h1.
    + destruct HB as (h1 & [= -> ->] & Y). now exists h1.
    + cbn [fst] in HB. now rewrite HB.
    + cbn [fst] in HB. now rewrite HB.
Qed.

(* ranging over a slice type with methods *)
Lemma ex_range_stc {A} n (inj : A -> val) k v e body st st1 t l :
  EV n e st = (Ok (VStc t [("[]"%string, VLst (map inj l))]), st1) ->
  EX n (SRange k v e body) st
  = range_loop
      (fun p s => plug n [KPop; KPop] (run_block (EX n) None body
         (push [] (push (bind_name k (fst p) (bind_name v (snd p) [])) s))))
      (indexed 0 (map inj l)) st1.
Proof.
  intros H1.
  change (EX n (SRange k v e body) st) with
    ((xdo w <- EV n e ;; xdo l <- xlift (v_range w) ;;
      range_loop
        (fun p s => let (r, s') := x_scope [] (run_block (EX n) None body)
                      (push (bind_name k (fst p) (bind_name v (snd p) [])) s) in (r, pop s')) l) st).
  unfold xbind. rewrite H1. unfold xlift. cbn [v_range name_eqb]. clear H1.
  change (if name_eqb "[]" "[]" then Ok (indexed 0 (map inj l)) else stuck) with (Ok (indexed 0 (map inj l))). cbv iota.
  generalize (indexed 0 (map inj l)) as l'. intros l'. revert st1.
  induction l' as [|p l' IH]; intros st1; [reflexivity|]. cbn [range_loop].
  unfold xbind. cbn [plug kstep].
  unfold x_scope. fold (push [] (push (bind_name k (fst p) (bind_name v (snd p) [])) st1)).
  destruct (run_block _ _ _ _) as [[[]| | |] s']; cbn [fst snd]; try reflexivity; apply IH.
Qed.

Lemma comb_bounds l : Forall says_sat l ->
  Forall (fun k => says_sat k /\ (cheight k <= fold_right (fun k h => Nat.max (cheight k) h) 0 l)%nat
                   /\ (cdepth k <= fold_right (fun k h => Nat.max (cdepth k) h) 0 l)%nat) l.
Proof.
  induction 1 as [|k l Hk H IH]; constructor; cbn [fold_right].
  - split; [exact Hk | lia].
  - eapply Forall_impl; [|exact IH]. intros a (A1 & A2 & A3). repeat split; [exact A1 | lia | lia].
Qed.
Lemma sat_and l : Forall says_sat l -> says_sat (CAnd l).
Proof.
  intros F E L n s vm M g1 g2 o path out calls t fs w R K Hh Hn. rewrite comb_and. cbn [cheight cdepth] in *. unfold go_sat.
  cbn [v_comb type_of]. change ("compute.AndCombinator" ++ ".Sat")%string with "compute.AndCombinator.Sat"%string.
  destruct n as [|n]; [lia|].
  func_at src_compute_AndCombinator_Sat.
  pose proof (comb_loop E o path g1 M L n true (VStc "compute.AndCombinator" [("[]"%string, VLst (map v_comb l))]) _ _
    ltac:(instantiate (1 := fold_right (fun k h => Nat.max (cdepth k) h) 0%nat l); instantiate (1 := fold_right (fun k h => Nat.max (cheight k) h) 0%nat l); lia)
    l 0 s vm g2 out calls t fs w (comb_bounds l F) R K Hh) as X.
  erewrite plug_exec; [|eapply ex_range_stc; ev]. cbv iota in X. fold (comb_body true).
  destruct (range_loop _ _ _) as [p st]. 
  destruct (comb_list E true l (mkSolver out calls) (mkCtx s vm M)) as [[r sv] c].
  destruct r as [x|e| |]; cbn [turns_as sats_as fst] in X |- *.
  - destruct X as (h & [= -> ->] & Y). exists h. split; [|exact Y]. destruct x; cbn [Bool.eqb]; sts; reflexivity.
  - destruct X as (h & [= -> ->] & Y). exists h. split; [|exact Y]. sts; reflexivity.
  - subst p. apply fst_panic.
  - subst p. apply fst_hang.
Qed.
Lemma sat_or l : Forall says_sat l -> says_sat (COr l).
Proof.
  intros F E L n s vm M g1 g2 o path out calls t fs w R K Hh Hn. rewrite comb_or. cbn [cheight cdepth] in *. unfold go_sat.
  cbn [v_comb type_of]. change ("compute.OrCombinator" ++ ".Sat")%string with "compute.OrCombinator.Sat"%string.
  destruct n as [|n]; [lia|].
  func_at src_compute_OrCombinator_Sat.
  pose proof (comb_loop E o path g1 M L n false (VStc "compute.OrCombinator" [("[]"%string, VLst (map v_comb l))]) _ _
    ltac:(instantiate (1 := fold_right (fun k h => Nat.max (cdepth k) h) 0%nat l); instantiate (1 := fold_right (fun k h => Nat.max (cheight k) h) 0%nat l); lia)
    l 0 s vm g2 out calls t fs w (comb_bounds l F) R K Hh) as X.
  erewrite plug_exec; [|eapply ex_range_stc; ev]. cbv iota in X. fold (comb_body false).
  destruct (range_loop _ _ _) as [p st]. 
  destruct (comb_list E false l (mkSolver out calls) (mkCtx s vm M)) as [[r sv] c].
  destruct r as [x|e| |]; cbn [turns_as sats_as fst] in X |- *.
  - destruct X as (h & [= -> ->] & Y). exists h. split; [|exact Y]. destruct x; cbn [Bool.eqb]; sts; reflexivity.
  - destruct X as (h & [= -> ->] & Y). exists h. split; [|exact Y]. sts; reflexivity.
  - subst p. apply fst_panic.
  - subst p. apply fst_hang.
Qed.
Theorem go_comb k : says_sat k.
Proof. induction k as [|q neg|l F|l F] using comb_ind'; [unfold says_sat; intros; reflexivity | apply sat_atom | now apply sat_and | now apply sat_or]. Qed.

(* ---- compute/optimum.go:35-96 ---- *)

Section PtrCall.
  Variables (n : nat) (x m t : string) (fs : list (string * val)) (es : list expr) (vs : list val).
  Variables (en : list GoLang.frame) (d : list (list stmt)) (h h2 : heap).
  Hypothesis Hx : elookup x en = Some (VPtr (length h)).
  Hypothesis Hes : x_map (EV n) es (mkMs en d (h ++ VStc t fs :: h2)) = (Ok vs, mkMs en d (h ++ VStc t fs :: h2)).
  Hypothesis Hk : kind_of prog (dot t m) = Some true.
  Lemma ev_ptr_meth :
    EV n (XMeth (XVar x) m es) (mkMs en d (h ++ VStc t fs :: h2))
      = match gocall n (dot t m) (VStc t fs :: vs) (h ++ VStc t fs :: h2) with
        | (Ok (v :: vs), k) => (Ok (one vs), mkMs en d (heap_set k (length h) v))
        | (Ok [], k) => (stuck, mkMs en d k)
        | (Err x, k) => (Err x, mkMs en d k)
        | (Panic, k) => (Panic, mkMs en d k)
        | (Hang, k) => (Hang, mkMs en d k)
        end.
  Proof.
    eapply eq_trans; [eapply ev_meth; [apply ev_var; exact Hx | exact Hes | apply surjective_pairing]|].
    rewrite <- surjective_pairing.
    unfold x_method, xbind, x_load. cbn [mHeap mEnv mDefers]. rewrite heap_at.
    unfold method, own_method. rewrite Hk.
    unfold xbind, x_call, xret, xlift, x_store. cbn [mHeap mEnv mDefers].
    fold gocall. destruct (gocall n (dot t m) _ _) as [[[|v ws]| | |] k]; reflexivity.
  Qed.
End PtrCall.

Definition v_fg (fg : QVar -> query) : val :=
  VFun (fun l => match l with [AVar v] => v_query (fg v) | _ => VNil end).
Definition v_og (og : QVar -> QConst -> query) : val :=
  VFun (fun l => match l with [AVar v; AConst i zs] => v_query (og v (mkQConst i zs)) | _ => VNil end).
Lemma dyn_fg fg v : v_dyn (v_fg fg) [VStr v] = Ok (v_query (fg v)).
Proof. reflexivity. Qed.
Lemma farg_const k : v_farg (v_const k) = Ok (AConst (cID k) (cVal k)).
Proof.
  destruct k as [i zs]. unfold v_const, v_feats. cbn [cID cVal v_farg].
  assert (A : (fix ints (l : list val) : res (list Z) :=
       match l with [] => Ok [] | VInt z :: r => rdo zs <- ints r ;; Ok (z :: zs) | _ => stuck end) (map VInt zs) = Ok zs).
  { induction zs as [|z zs IH]; [reflexivity|]. cbn [map]. now rewrite IH. }
  now rewrite A.
Qed.
Lemma dyn_og og v k : v_dyn (v_og og) [VStr v; v_const k] = Ok (v_query (og v k)).
Proof. cbn [v_dyn v_og fargs]. rewrite farg_const. now destruct k. Qed.

(* compute/optimum.go:13-20 *)
Definition v_opt (x : OptOutput) : val :=
  VStc "compute.OptOutput" [("Found", VBool (oFound x)); ("Value", v_const (oValue x)); ("Calls", VInt (oCalls x))].

Lemma kept_reset L K M c : kept L K M c -> kept L 0 M (CtxReset c).
Proof. intros (H1 & H2 & H3 & H4). repeat split; assumption. Qed.

Lemma Values_one out v c :
  Values out [v] c = match varValueFromBytes out v c with
                     | (Ok k, c) => (Ok [k], c)
                     | (Err e, c) => (Err e, c)
                     | (Panic, c) => (Panic, c)
                     | (Hang, c) => (Hang, c)
                     end.
Proof. cbn [Values]. now destruct (varValueFromBytes out v c) as [[k|e| |] c1]. Qed.
Definition zero_out : expr :=
  XStc "compute.OptOutput" [("Found", XBool false); ("Value", XStc "query.QConst" [("ID", XStr ""); ("Val", XLst [])]); ("Calls", XInt 0)].
Definition opt_query : expr :=
  XStc "logop.WithVar" [("I", XVar "v"); ("Q", XStc "logop.And" [("Q1", XDyn (XVar "fg") [XVar "v"]);
     ("Q2", XDyn (XVar "og") [XVar "v"; XIdx (XVar "bm") (XInt 0)])])].
Definition opt_body : list stmt :=
  [SAssign [LVar "steps"] [XBin OAdd (XVar "steps") (XInt 1)];
   SAssign [LVar "bm"; LVar "err"] [XMeth (XVar "solver") "Values" [XLst [XVar "v"]; XVar "ctx"]];
   SIf [] (XBin ONe (XVar "err") XNil) [SReturn [zero_out; XVar "err"]] [];
   SExpr (XMeth (XVar "ctx") "Reset" []);
   SAssign [LVar "err"] [XMeth (XVar "solver") "Step" [opt_query; XVar "ctx"]];
   SIf [] (XBin ONe (XVar "err") XNil)
     [SIf [] (XPrim "errors.Is" [XVar "err"; XGlob "compute.UnsatError"]) [SBreak] [];
      SReturn [zero_out; XVar "err"]] []].

Ltac ev_hook e ::=
  lazymatch e with
  | XDyn _ [_] => eapply ev_dyn; [ev | evs | apply dyn_fg]
  | XDyn _ [_; _] => eapply ev_dyn; [ev | evs | apply dyn_og]
  | XSys "os.Remove" _ => eapply ev_Remove; ev
  end.

Lemma loop_forever n body f st :
  loop (xdo v <- EV n (XBool true) ;; xlift (v_bool v)) body (run_block (EX n) None []) (S f) st
  = match body st with
    | (Ok FNext, st') | (Ok FContinue, st') => loop (xdo v <- EV n (XBool true) ;; xlift (v_bool v)) body (run_block (EX n) None []) f st'
    | (Ok FBreak, st') => (Ok FNext, st')
    | (r, st') => (r, st')
    end.
Proof. cbn [loop]. unfold xbind at 1 2. cbn [eval xret]. unfold xlift at 1. cbn [v_bool]. unfold xbind at 1. now destruct (body st) as [[[]| | |] st']. Qed.

Section Optim.
  Variables (n L H : nat) (E : env) (M : model) (o : os) (path : string) (g1 : heap) (p : string).
  Variables (fg : QVar -> query) (og : QVar -> QConst -> query) (v : QVar) (d : list (list stmt)).
  Hypothesis Hfg : (qheight (fg v) <= H)%nat.
  Hypothesis Hog : forall k, (qheight (og v k) <= H)%nat.
  Hypothesis HL : (H + 2 <= L)%nat.
  Hypothesis Hn : (base_fuel L M + 2 * (H + 2) + 1 <= n)%nat.

  Definition opt_env (bm err : val) (steps : Z) : list GoLang.frame :=
    [[("steps", VInt steps); ("err", err); ("tmpfp", v_file p); ("bm", bm);
      ("fg", v_fg fg); ("og", v_og og); ("v", VStr v); ("ctx", VPtr 0); ("solver", VPtr (S (S (length g1))))]]%string.
  Definition opts_as (g2 : heap) (t : nat) (fs : list (string * string)) (calls : nat)
      (q : res flow * ms) (x : res OptOutput * solver * ctx) : Prop :=
    let '(r, sv, c) := x in
    match r with
    | Ok x => oFound x = true /\ exists h err K, q = (Ok FNext, mkMs ([] :: opt_env (VLst [v_const (oValue x)]) err (oCalls x)) d h)
                       /\ leaves path o g1 g2 t fs calls L K M sv c h
    | Err e => exists h bm err steps K, q = (Ok (FRet (Some [v_opt opt_zero; VErr e []])), mkMs ([] :: opt_env bm err steps) d h)
                       /\ leaves path o g1 g2 t fs calls L K M sv c h
    | Panic => fst q = Panic
    | Hang => fst q = Hang
    end.
  Lemma opt_turns : forall f s vm g2 out calls t fs w bm err steps,
    reads E o path calls t -> kept L (length (scopes s)) M (mkCtx s vm M) ->
    opts_as g2 t fs calls
      (loop (xdo v <- EV n (XBool true) ;; xlift (v_bool v))
         (fun s => plug n [KPop] (run_block (EX n) None opt_body (push [] s)))
         (run_block (EX n) None []) f
         (mkMs ([] :: opt_env bm err steps) d (hc s M (VSys (osr o t fs w) :: g1 ++ v_solver path out :: g2) vm)))
      (opt_loop f E fg og v (mkSolver out calls) (mkCtx s vm M) steps).
  Proof.
    induction f as [|f IH]; intros s vm g2 out calls t fs w bm err steps R K; [reflexivity|].
    rewrite loop_forever. cbn [opt_loop bs_output].
    pose proof (go_Values n s M (VSys (osr o t fs w) :: g1 ++ v_solver path out :: g2) vm path out [v] ltac:(unfold base_fuel in Hn; lia)) as V.
    assert (EM : forall en, elookup "solver" en = Some (VPtr (S (S (length g1)))) -> elookup "v" en = Some (VStr v) -> elookup "ctx" en = Some (VPtr 0) ->
       EV n (XMeth (XVar "solver") "Values" [XLst [XVar "v"]; XVar "ctx"]) (mkMs en d (hc s M (VSys (osr o t fs w) :: g1 ++ v_solver path out :: g2) vm))
       = match Values out [v] (mkCtx s vm M) with
         | (Ok ks, c) => (Ok (VTup [VLst (map v_const ks); VNil]), mkMs en d (hc s M (VSys (osr o t fs w) :: g1 ++ v_solver path out :: g2) (cVM c)))
         | (Err e, c) => (Ok (VTup [VLst []; VErr e []]), mkMs en d (hc s M (VSys (osr o t fs w) :: g1 ++ v_solver path out :: g2) (cVM c)))
         | (Panic, c) => (Panic, mkMs en d (hc s M (VSys (osr o t fs w) :: g1 ++ v_solver path out :: g2) (cVM c)))
         | (Hang, c) => (Hang, mkMs en d (hc s M (VSys (osr o t fs w) :: g1 ++ v_solver path out :: g2) (cVM c)))
         end).
    { intros en H1 H2 H3. eapply eq_trans.
      - apply (ev_ptr_meth n "solver" "Values" "compute.binSolver" [("output", VStr out); ("solverPath", VStr path)]%string _ [VLst [VStr v]; VPtr 0] en d
          (v_ctx (mkCtx s vm M) :: VSys (osr o t fs w) :: g1) g2 H1); [|reflexivity].
        cbn [x_map eval]. unfold xbind, xret, x_get. cbn [mEnv]. rewrite H2. cbn [mEnv]. rewrite H3. reflexivity.
      - change (dot "compute.binSolver" "Values") with "compute.binSolver.Values"%string. 
        change ((v_ctx (mkCtx s vm M) :: VSys (osr o t fs w) :: g1) ++ VStc "compute.binSolver" [("output"%string, VStr out); ("solverPath"%string, VStr path)] :: g2)
          with (hc s M (VSys (osr o t fs w) :: g1 ++ v_solver path out :: g2) vm).
        fold (v_solver path out). change [VStr v] with (map VStr [v]). rewrite V.
        unfold values_run. destruct (Values out [v] (mkCtx s vm M)) as [[ks|e| |] c]; cbn [one]; try reflexivity; repeat f_equal.
        + exact (heap_put (v_ctx (mkCtx s (cVM c) M) :: VSys (osr o t fs w) :: g1) (v_solver path out) g2 (v_solver path out)).
        + exact (heap_put (v_ctx (mkCtx s (cVM c) M) :: VSys (osr o t fs w) :: g1) (v_solver path out) g2 (v_solver path out)). }
    rewrite Values_one in EM |- *. destruct (varValueFromBytes out v (mkCtx s vm M)) as [[k|e| |] c] eqn:VV.
    all: assert (EC : c = mkCtx s (cVM c) M) by (eapply (Values_ctx out s M [v] vm); rewrite Values_one, VV; reflexivity).
    all: destruct c as [s1 vm1 M1]; injection EC as -> ->; cbn [cVM] in EM.
    4:{ exfalso. destruct (value_cases out v s vm M) as (vm' & [(k & X)|[(e & X)|X]]); rewrite VV in X; discriminate. }
    3:{ cbn [opts_as]. unfold opt_body, opt_env. red_env. stp.
        erewrite plug_panic; [|eapply ex_assign2_panic; apply EM; reflexivity]. reflexivity. }
    2:{ cbn [opts_as]. unfold opt_body, opt_env. red_env. stp.
        erewrite plug_step; [|eapply ex_assign2; [apply EM; reflexivity | asg | asg]]. sts.
        eexists _, _, _, _, (length (scopes s)). split; [reflexivity|].
        exists 0%nat, w, []. cbn [bs_calls bs_output afters]. rewrite !Nat.add_0_r, app_nil_r.
        split; [reflexivity|]. split; [exact K | reflexivity]. }
    assert (ER : forall en h, elookup "ctx" en = Some (VPtr 0) ->
       EV n (XMeth (XVar "ctx") "Reset" []) (mkMs en d (v_ctx (mkCtx s vm1 M) :: h)) = (Ok (VTup []), mkMs en d (v_ctx (CtxReset (mkCtx s vm1 M)) :: h))).
    { intros en h H1. eapply eq_trans.
      - apply (ev_ptr_meth n "ctx" "Reset" "query.baseQContext" _ _ [] en d [] h H1); reflexivity.
      - change (dot "query.baseQContext" "Reset") with "query.baseQContext.Reset"%string. cbn [app].
        fold (v_ctx (mkCtx s vm1 M)). rewrite go_CtxReset; [reflexivity | unfold base_fuel in Hn; lia]. }
    set (st2 := mkMs ([] :: [] :: opt_env (VLst [v_const k]) VNil (steps + 1)) d (hc (ScoperReset s) M (VSys (osr o t fs w) :: g1 ++ v_solver path out :: g2) (VarmanReset vm1))).
    assert (EQ : EV n opt_query st2 = (Ok (v_query (QWith v (QAnd (fg v) (og v k)))), st2)).
    { unfold opt_query, st2, opt_env. cbn [v_query]. ev. }
    pose proof (ev_Step n L E M o path g1 g2 (ScoperReset s) (VarmanReset vm1) out calls t fs w (QWith v (QAnd (fg v) (og v k))) opt_query
      ([] :: [] :: opt_env (VLst [v_const k]) VNil (steps + 1)) d R (kept_reset _ _ _ _ K)
      ltac:(cbn [ScoperReset scopes length qheight]; specialize (Hog k); lia) ltac:(cbn [qheight]; specialize (Hog k); lia)
      EQ eq_refl eq_refl) as X. fold st2 in X.
    assert (EP : plug n [KPop] (run_block (EX n) None opt_body (push [] (mkMs ([] :: opt_env bm err steps) d (hc s M (VSys (osr o t fs w) :: g1 ++ v_solver path out :: g2) vm))))
        = plug n [KSeq [SIf [] (XBin ONe (XVar "err") XNil)
               [SIf [] (XPrim "errors.Is" [XVar "err"; XGlob "compute.UnsatError"]) [SBreak] [];
                SReturn [zero_out; XVar "err"]] []]; KPop]
            (EX n (SAssign [LVar "err"] [XMeth (XVar "solver") "Step" [opt_query; XVar "ctx"]]) st2)).
    { unfold opt_body, opt_env. red_env. stp.
      erewrite plug_step; [|eapply ex_assign2; [apply EM; reflexivity | asg | asg]]. stp.
      erewrite plug_step; [|eapply ex_expr; apply ER; reflexivity].
      erewrite plug_exec; [|reflexivity]. reflexivity. }
    rewrite EP. clear EP. cbn [ScoperReset scopes length] in X.
    change (CtxReset (mkCtx s vm1 M)) with (mkCtx (ScoperReset s) (VarmanReset vm1) M).
    change (mkScoper [] (svars s)) with (ScoperReset s) in X.
    destruct (Step E (QWith v (QAnd (fg v) (og v k))) (mkSolver out calls) (mkCtx (ScoperReset s) (VarmanReset vm1) M)) as [[r sv] c].
    destruct r; cbn [v_sres] in X.
    - destruct X as (h & X & Y).
      assert (EB : plug n [KSeq [SIf [] (XBin ONe (XVar "err") XNil)
               [SIf [] (XPrim "errors.Is" [XVar "err"; XGlob "compute.UnsatError"]) [SBreak] [];
                SReturn [zero_out; XVar "err"]] []]; KPop]
            (EX n (SAssign [LVar "err"] [XMeth (XVar "solver") "Step" [opt_query; XVar "ctx"]]) st2)
          = (Ok FNext, mkMs ([] :: opt_env (VLst [v_const k]) VNil (steps + 1)) d h)).
      { erewrite ex_assign; [|exact X|unfold opt_env; asg]. rewrite plug_seq_next. sts. reflexivity. }
      rewrite EB. clear EB.
      destruct Y as (m & w1 & k1 & Y1 & Y2 & ->). destruct c as [s1 vm2 M1]. assert (M1 = M) by apply Y2. subst M1.
      assert (Es : length (scopes s1) = 0%nat) by apply Y2. rewrite <- Es in Y2.
      specialize (IH s1 vm2 (g2 ++ k1) (bs_output sv) (calls + m)%nat (t + m)%nat (afters o t m fs) w1 (VLst [v_const k]) VNil (steps + 1) (reads_app _ _ _ _ _ _ R) Y2).
      destruct sv as [out1 calls1]. cbn [bs_calls bs_output] in *. subst calls1.
      change (hc s1 M (VSys (osr o (t + m) (afters o t m fs) w1) :: g1 ++ v_solver path out1 :: g2 ++ k1) vm2)
          with (v_ctx (mkCtx s1 vm2 M) :: VSys (osr o (t + m) (afters o t m fs) w1) :: g1 ++ v_solver path out1 :: g2 ++ k1) in IH.
      destruct (opt_loop f E fg og v (mkSolver out1 (calls + m)) (mkCtx s1 vm2 M) (steps + 1)) as [[[x|e| |] sv] c]; cbn [opts_as] in IH |- *.
      + destruct IH as (If & h & er & K' & -> & Y). split; [exact If|]. exists h, er, K'. split; [reflexivity|]. exact (leaves_trans _ _ _ _ _ _ _ _ _ _ _ _ _ _ _ Y).
      + destruct IH as (h & bm' & er & st' & K' & -> & Y). exists h, bm', er, st', K'. split; [reflexivity|]. exact (leaves_trans _ _ _ _ _ _ _ _ _ _ _ _ _ _ _ Y).
      + exact IH.
      + exact IH.
    - destruct X as (h & X & Y). cbn [opts_as]. split; [reflexivity|]. eexists h, _, 0%nat. split; [|exact Y].
      erewrite ex_assign; [|exact X|unfold opt_env; asg].
      rewrite plug_seq_next. sts. reflexivity.
    - destruct X as (h & X & Y). cbn [opts_as]. eexists h, _, _, _, 0%nat. split; [|exact Y].
      erewrite ex_assign; [|exact X|unfold opt_env; asg].
      rewrite plug_seq_next. sts. reflexivity.
    - cbn [opts_as]. destruct (EV n (XMeth _ _ _) _) as [p1 st1] eqn:EV1. cbn [fst] in X. subst p1.
      erewrite ex_assign_panic by exact EV1. reflexivity.
    - cbn [opts_as]. destruct (EV n (XMeth _ _ _) _) as [p1 st1] eqn:EV1. cbn [fst] in X. subst p1.
      erewrite ex_assign_hang by exact EV1. reflexivity.
  Qed.
End Optim.

Lemma file_remove_comm p q fs : file_remove p (file_remove q fs) = file_remove q (file_remove p fs).
Proof.
  unfold file_remove. induction fs as [|x l IH]; [reflexivity|]. cbn [filter].
  destruct (String.eqb (fst x) p) eqn:E1, (String.eqb (fst x) q) eqn:E2; cbn [negb filter]; rewrite ?E1, ?E2; cbn [negb]; now rewrite IH.
Qed.
Lemma afters_remove o p : forall m t fs, file_remove p (afters o t m fs) = afters o t m (file_remove p fs).
Proof.
  induction m as [|m IH]; intros t fs; cbn [afters]; [reflexivity|]. rewrite IH. f_equal. unfold after.
  destruct (o_tmp o t); [apply file_remove_comm | reflexivity].
Qed.

(* m Steps were taken, after one os.CreateTemp *)
Definition optim_as (path : string) (o : os) (g1 g2 : heap) (t : nat) (fs : list (string * string)) (calls : nat)
    (L : nat) (M : model) (p : res (list val) * heap) (x : res OptOutput * solver * ctx) : Prop :=
  let '(r, sv, c) := x in
  let ends (vs : list val) :=
    exists K m w k, bs_calls sv = (calls + m)%nat /\ kept L K M c /\
      p = (Ok vs, v_ctx c :: VSys (osr o (t + S m) (afters o t (S m) fs) w) :: g1 ++ v_solver path (bs_output sv) :: g2 ++ k) in
  match r with
  | Ok x => ends [v_opt x; VNil]
  | Err e => ends [v_opt opt_zero; VErr e []]
  | Panic => fst p = Panic
  | Hang => fst p = Hang
  end.

Theorem go_ComputeOptim n L H E s vm M g1 g2 o path out calls t fs w fg og v :
  e_opttmp E = tmp_ok o t -> reads E o path calls (S t) ->
  kept L (length (scopes s)) M (mkCtx s vm M) ->
  (qheight (fg v) <= H)%nat -> (forall k, (qheight (og v k) <= H)%nat) ->
  (length (scopes s) + H + 2 <= L)%nat -> (base_fuel L M + 2 * H + 5 <= n)%nat ->
  optim_as path o g1 g2 t fs calls L M
    (gocall (S n) "compute.ComputeOptim" [v_fg fg; v_og og; VStr v; VPtr 0; VPtr (S (S (length g1)))]
       (hc s M (VSys (osr o t fs w) :: g1 ++ v_solver path out :: g2) vm))
    (ComputeOptim n E fg og v (mkCtx s vm M) (mkSolver out calls)).
Proof.
  intros Et R K Hfg Hog HL Hn. unfold ComputeOptim. rewrite Et. unfold tmp_ok.
  func_at src_compute_ComputeOptim.
  destruct (o_tmp o t) as [p|] eqn:Ep; cbn [negb].
  2:{ cbn [optim_as]. exists (length (scopes s)), 0%nat, w, []. cbn [bs_calls bs_output afters]. unfold after. rewrite Ep, Nat.add_0_r, Nat.add_1_r, app_nil_r.
      split; [reflexivity|]. split; [exact K|]. stp.
      erewrite plug_step; [|eapply ex_assign2; [eapply ev_CreateTemp_fails; exact Ep | asg | asg]].
      sts. reflexivity. }
  stp. erewrite plug_step; [|eapply ex_assign2; [eapply ev_CreateTemp; exact Ep | asg | asg]].
  stp. rewrite plug_defer.
  match goal with |- context [mkMs [?fr] [?df] _] => set (d := df) end.
  set (g := g1 ++ v_solver path out :: g2).
  set (qe := XStc "logop.WithVar" [("I", XVar "v"); ("Q", XDyn (XVar "fg") [XVar "v"])]).
  set (st1 := mkMs _ [d] _).
  assert (EQ : EV n qe (push [] st1) = (Ok (v_query (QWith v (fg v))), push [] st1)).
  { unfold qe, st1. cbn [v_query]. ev. }
  assert (Hh : (length (scopes s) + qheight (QWith v (fg v)) <= L)%nat) by (cbn [qheight]; lia).
  pose proof (ev_Step n L E M o path g1 g2 s vm out calls (S t) (file_set p "" fs) w (QWith v (fg v)) qe
    ([] :: mEnv st1) [d] R K Hh ltac:(cbn [qheight]; lia) EQ eq_refl eq_refl) as X.
  change (mkMs ([] :: mEnv st1) [d] (hc s M (VSys (osr o (S t) (file_set p "" fs) w) :: g1 ++ v_solver path out :: g2) vm)) with (push [] st1) in X.
  (* the end of the function, after m Steps *)
  assert (FIN : forall en c sv m w k vs, elookup "tmpfp" en = Some (v_file p) -> cModel c = M ->
     fin n src_compute_ComputeOptim (plug n [] (Ok (FRet (Some vs)), mkMs en [d]
        (v_ctx c :: VSys (osr o (S t + m) (afters o (S t) m (file_set p "" fs)) w) :: g1 ++ v_solver path (bs_output sv) :: g2 ++ k)))
     = (Ok vs, v_ctx c :: VSys (osr o (t + S m) (afters o t (S m) fs) w) :: g1 ++ v_solver path (bs_output sv) :: g2 ++ k)).
  { intros en [s1 vm1 M1] sv m w1 k vs Ht EM. cbn in EM. subst M1.
    assert (XMT : forall m h (y : list val), prim_meth "os.File" m [("name", VStr p)]%string [] = Some (Ok (y, None)) ->
       kind_of prog (dot "os.File" m) = None ->
       EV n (XMeth (XVar "tmpfp") m []) (mkMs ([] :: en) [d] h) = (Ok (one y), mkMs ([] :: en) [d] h)).
    { intros m0 h y H1 H2. eapply ev_meth; [apply ev_var; exact Ht | apply xm_nil|].
      unfold x_method, v_file, method, own_method. rewrite H2, H1. reflexivity. }
    assert (EF : file_remove p (afters o (S t) m (file_set p "" fs)) = afters o t (S m) fs).
    { cbn [afters]. rewrite afters_remove, file_remove_set. unfold after. now rewrite Ep. }
    replace (t + S m)%nat with (S t + m)%nat by lia. rewrite <- EF.
    eapply fin_ret_defer; [reflexivity|reflexivity|].
    eapply blk_step; [eapply ex_expr; apply XMT; reflexivity|].
    eapply blk_step; [eapply ex_expr|apply blk_nil].
    eapply (ev_Remove n s1 M (g1 ++ v_solver path (bs_output sv) :: g2 ++ k) vm1 o (S t + m) ([] :: en) [d] _ (afters o (S t) m (file_set p "" fs)) w1 p).
    exact (XMT "Name"%string _ [VStr p] eq_refl eq_refl). }
  destruct (Step E (QWith v (fg v)) (mkSolver out calls) (mkCtx s vm M)) as [[r sv] c].
  destruct r; cbn [v_sres] in X.
  - destruct X as (h & X & Y).
    unfold st1 in X |- *. cbn [push mEnv mDefers mHeap] in X.
    erewrite plug_if; [|eapply blk_step; [eapply ex_assign; [exact X|asg]|apply blk_nil]|ev]; red_cond.
    stp. stp.
    destruct Y as (m & w1 & k1 & Y1 & Y2 & ->). destruct c as [s1 vm2 M1]. assert (M1 = M) by apply Y2. subst M1.
    assert (Es : length (scopes s1) = length (scopes s)) by apply Y2. rewrite <- Es in Y2.
    pose proof (opt_turns n L H E M o path g1 p fg og v [d] Hfg Hog ltac:(lia) ltac:(lia) n s1 vm2 (g2 ++ k1) (bs_output sv) (calls + m)%nat (S t + m)%nat
      (afters o (S t) m (file_set p "" fs)) w1 (VLst []) VNil 1 (reads_app _ _ _ _ _ _ R) Y2) as W.
    destruct sv as [out1 calls1]. cbn [bs_calls bs_output] in *. subst calls1.
    change (hc s1 M (VSys (osr o (S t + m) (afters o (S t) m (file_set p "" fs)) w1) :: g1 ++ v_solver path out1 :: g2 ++ k1) vm2)
      with (v_ctx (mkCtx s1 vm2 M) :: VSys (osr o (S t + m) (afters o (S t) m (file_set p "" fs)) w1) :: g1 ++ v_solver path out1 :: g2 ++ k1) in W.
    erewrite plug_exec; [|eapply ex_for_gen; apply blk_nil].
    match type of W with context [loop ?a ?b ?c ?e ?f] => let q := constr:(loop a b c e f) in
      match goal with |- context [plug n [_] (let (r, s') := ?q' in _)] => change q' with q end; destruct q as [fl st'] end.
    destruct (opt_loop n E fg og v (mkSolver out1 (calls + m)) (mkCtx s1 vm2 M) 1) as [[[x|e| |] sv] c]; cbn [opts_as] in W; cbn [optim_as].
    + destruct W as (Wf & h & er & K' & W & Y). apply leaves_trans in Y. injection W as -> ->.
      destruct Y as (m' & w' & k' & Y1' & Y2' & ->). exists K', m', w', k'. split; [exact Y1'|]. split; [exact Y2'|].
      unfold opt_env, pop. cbn [tl mEnv mDefers mHeap]. sts. rewrite FIN; [|reflexivity|apply Y2']. destruct x as [fd bm cl]. cbn in Wf. subst fd. reflexivity.
    + destruct W as (h & bm & er & st0 & K' & W & Y). apply leaves_trans in Y. injection W as -> ->.
      destruct Y as (m' & w' & k' & Y1' & Y2' & ->). exists K', m', w', k'. split; [exact Y1'|]. split; [exact Y2'|].
      unfold opt_env, pop. cbn [tl mEnv mDefers mHeap]. sts. rewrite FIN; [|reflexivity|apply Y2']. reflexivity.
    + cbn [fst] in W. subst fl. apply fst_panic.
    + cbn [fst] in W. subst fl. apply fst_hang.
  - destruct X as (h & X & Y). cbn [optim_as].
    destruct Y as (m' & w' & k' & Y1' & Y2' & ->). exists (length (scopes s)), m', w', k'. split; [exact Y1'|]. split; [exact Y2'|].
    unfold st1 in X |- *. cbn [push mEnv mDefers mHeap] in X.
    erewrite plug_if; [|eapply blk_step; [eapply ex_assign; [exact X|asg]|apply blk_nil]|ev]; red_cond.
    sts. change (existsb (String.eqb "compute.UnsatError") ["compute.UnsatError"%string]) with true. cbv iota.
    sts. rewrite FIN; [|reflexivity|apply Y2']. reflexivity.
  - destruct X as (h & X & Y). cbn [optim_as].
    destruct Y as (m' & w' & k' & Y1' & Y2' & ->). exists (length (scopes s)), m', w', k'. split; [exact Y1'|]. split; [exact Y2'|].
    unfold st1 in X |- *. cbn [push mEnv mDefers mHeap] in X.
    erewrite plug_if; [|eapply blk_step; [eapply ex_assign; [exact X|asg]|apply blk_nil]|ev]; red_cond.
    sts. change (existsb (String.eqb "compute.UnsatError") []) with false. cbv iota.
    sts. rewrite FIN; [|reflexivity|apply Y2']. reflexivity.
  - cbn [optim_as]. destruct (EV n (XMeth _ _ _) _) as [p1 st2] eqn:EV1. cbn [fst] in X. subst p1.
    erewrite plug_panic; [apply fst_panic|]. cbn [exec]. unfold x_scope, xbind. cbn [run_block]. unfold xbind.
    fold (push [] st1). erewrite ex_assign_panic by exact EV1. reflexivity.
  - cbn [optim_as]. destruct (EV n (XMeth _ _ _) _) as [p1 st2] eqn:EV1. cbn [fst] in X. subst p1.
    erewrite plug_hang; [apply fst_hang|]. cbn [exec]. unfold x_scope, xbind. cbn [run_block]. unfold xbind.
    fold (push [] st1). erewrite ex_assign_hang by exact EV1. reflexivity.
Qed.
