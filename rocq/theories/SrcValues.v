(* Reading the solver's output, compute/solver.go:120-201, against the model. *)
From Verif Require Import GoBase GoLemmas Cnf Query Walk Atoms Logop Compute GoLang GoSource SrcBase SrcLemmas SrcCnf SrcQuery SrcCtx SrcPred SrcNode.
Local Open Scope string_scope.
Local Open Scope Z_scope.
Local Open Scope list_scope.

(* ---- maps to truth values ---- *)

Definition v_bmap (m : bmap) : list (val * val) := map (fun p => (VInt (fst p), VBool (snd p))) m.
(* an entry is replaced where it stands *)
Fixpoint bupd (k : Z) (b : bool) (m : bmap) : option bmap :=
  match m with
  | [] => None
  | (k', b') :: r => if k' =? k then Some ((k', b) :: r) else option_map (cons (k', b')) (bupd k b r)
  end.
Definition bset (k : Z) (b : bool) (m : bmap) : bmap :=
  match bupd k b m with Some m' => m' | None => (k, b) :: m end.

Lemma map_upd_bmap k b m : map_upd (VInt k) (VBool b) (v_bmap m) = option_map v_bmap (bupd k b m).
Proof.
  induction m as [|[k' b'] m IH]; [reflexivity|]. cbn [v_bmap map map_upd bupd fst snd veq veq0].
  destruct (k' =? k); [reflexivity|]. fold (v_bmap m). rewrite IH. now destruct (bupd k b m).
Qed.
Lemma set_idx_bmap k b m :
  v_set_index (VMap (v_bmap m)) (VInt k) (VBool b) = Ok (VMap (v_bmap (bset k b m))).
Proof. cbn [v_set_index]. unfold map_set, bset. rewrite map_upd_bmap. now destruct (bupd k b m). Qed.
Lemma idxz_bmap k m : v_index_zero (VMap (v_bmap m)) (VInt k) (VBool false) = Ok (VBool (bget m k)).
Proof.
  cbn [v_index_zero]. f_equal. induction m as [|[k' b'] m IH]; [reflexivity|].
  cbn [v_bmap map map_get bget fst snd veq veq0]. destruct (k' =? k); [reflexivity | exact IH].
Qed.
Lemma bget_set k b m k' : bget (bset k b m) k' = if k =? k' then b else bget m k'.
Proof.
  assert (X : forall m', bupd k b m = Some m' -> bget m' k' = if k =? k' then b else bget m k').
  { induction m as [|[q x] m IH]; intros m'; cbn [bupd]; [discriminate|]. destruct (Z.eqb_spec q k) as [->|N].
    - intros [= <-]. cbn [bget]. now destruct (k =? k').
    - destruct (bupd k b m) as [r|]; [|discriminate]. cbn [option_map]. intros [= <-]. cbn [bget]. rewrite (IH r eq_refl).
      destruct (Z.eqb_spec q k'), (Z.eqb_spec k k'); congruence. }
  unfold bset. destruct (bupd k b m) as [m'|]; [now apply X|]. reflexivity.
Qed.

Section Ev.
  Variable n : nat.
  Lemma ev_idxz e i z st st1 st2 st3 v j w x :
    EV n e st = (Ok v, st1) -> EV n i st1 = (Ok j, st2) -> EV n z st2 = (Ok w, st3) ->
    v_index_zero v j w = Ok x -> EV n (XIdxZ e i z) st = (Ok x, st3).
  Proof. intros H1 H2 H3 H4. cbn [eval]. unfold xbind. rewrite H1, H2, H3. unfold xlift. now rewrite H4. Qed.
End Ev.
Ltac ev_hook e ::=
  lazymatch e with
  | XIdxZ _ _ _ => eapply ev_idxz; [ev | ev | ev | apply idxz_bmap]
  end.

(* ---- the variables of a query variable ---- *)

Lemma go_iAbs n h z : (1 <= n)%nat -> gocall n "compute.iAbs" [VInt z] h = (Ok [VInt (iAbs z)], h).
Proof. func src_compute_iAbs. stp. unfold iAbs. destruct (0 <? z); sts; reflexivity. Qed.
Global Hint Resolve go_iAbs : gocall.

Definition filt_step (v : QVar) (i : Z) (p : bmap * varman) : bmap * varman :=
  let (m, vm) := p in
  let (b, vm) := CNFVar vm (v, i, BOT) in
  let (z, vm) := CNFVar vm (v, i, ZERO) in
  let (o, vm) := CNFVar vm (v, i, ONE) in
  (bset o true (bset z true (bset b true m)), vm).
(* the map has the numbers of the list *)
Definition holds (m : bmap) (l : list Z) : Prop := forall k, bget m k = existsb (Z.eqb k) l.
Lemma holds_set m l k : holds m l -> holds (bset k true m) (l ++ [k]).
Proof.
  intros H x. rewrite bget_set, existsb_app, (H x). cbn [existsb]. rewrite (Z.eqb_sym k x).
  destruct (x =? k); now rewrite ?orb_true_r, ?orb_false_r.
Qed.
Lemma filter_fold v : forall is m l vm m' vm',
  holds m l -> fold_left (fun s i => filt_step v i s) is (m, vm) = (m', vm') ->
  exists l', holds m' l' /\
    fold_left (fun acc i => let '(f, vm) := acc in
       let (b, vm) := CNFVar vm (v, i, BOT) in
       let (z, vm) := CNFVar vm (v, i, ZERO) in
       let (o, vm) := CNFVar vm (v, i, ONE) in
       (f ++ [b; z; o], vm)) is (l, vm) = (l', vm').
Proof.
  induction is as [|i is IH]; intros m l vm m' vm' H E; cbn [fold_left] in *.
  - injection E as <- <-. now exists l.
  - unfold filt_step at 2 in E. destruct (CNFVar vm (v, i, BOT)) as [b vm1]. destruct (CNFVar vm1 (v, i, ZERO)) as [z vm2].
    destruct (CNFVar vm2 (v, i, ONE)) as [o vm3]. refine (IH _ _ _ _ _ _ E).
    change [b; z; o] with ([b] ++ [z] ++ [o]). rewrite !app_assoc. now repeat apply holds_set.
Qed.

Lemma go_variableFilter n s M g vm v :
  (Dim M + 2 <= n)%nat ->
  exists m flt vm', variableFilter vm (Dim M) v = (flt, vm') /\ holds m flt /\
    gocall n "compute.variableFilter" [VStr v; VPtr 0] (hc s M g vm) = (Ok [VMap (v_bmap m)], hc s M g vm').
Proof.
  intros Hn. destruct (fold_left (fun s i => filt_step v i s) (zrange 0 (Z.of_nat (Dim M))) ([] : bmap, vm)) as [m vm'] eqn:E.
  destruct (filter_fold v _ [] [] vm m vm' (fun _ => eq_refl) E) as (flt & Hm & Ef). exists m, flt, vm'.
  split; [exact Ef|]. split; [exact Hm|]. clear Ef Hm. revert E.
  func src_compute_variableFilter. stp.
  pose proof set_idx_bmap as Hs.
  for_new "i"%string (fun p : bmap * varman => [("f"%string, VMap (v_bmap (fst p)))]) (fun p : bmap * varman => hc s M g (snd p))
    (filt_step v) from ([] : bmap, vm) to (Z.of_nat (Dim M)).
  - rewrite E. red_env. cbn [fst snd]. sts. reflexivity.
  - destruct s0 as [m0 vm0]. cbn [fst snd]. sts. exists FNext. split; [now left|]. unfold filt_step, BOT, ZERO, ONE.
    destruct (CNFVar vm0 (v, i, 0)) as [b vm1]. cbn [fst snd]. destruct (CNFVar vm1 (v, i, 1)) as [z vm2].
    cbn [fst snd]. destruct (CNFVar vm2 (v, i, 2)) as [o vm3]. reflexivity.
Qed.

(* ---- loops that may stop ---- *)

Section Stop.
  Variables (S A R : Type) (f : A -> S -> S + R * S).
  Fixpoint rstop (l : list A) (s : S) : S + R * S :=
    match l with
    | [] => inl s
    | a :: r => match f a s with inl s' => rstop r s' | inr p => inr p end
    end.
End Stop.
Arguments rstop {S A R} f l s.
Lemma rrun_stop {S A R} (mk : S -> ms) (f : A -> S -> S + R * S) : forall l i s,
  rrun (fun (_ : Z) a s => match f a s with inl s' => inl s' | inr (r, s') => inr (r, mk s') end) i l s
  = match rstop f l s with inl s' => inl s' | inr (r, s') => inr (r, mk s') end.
Proof.
  induction l as [|a l IH]; intros i s; [reflexivity|]. cbn [rrun rstop].
  destruct (f a s) as [s'|[r s']]; [apply IH | reflexivity].
Qed.
(* for _, a := range l, where f says how a turn ends *)
Ltac rngs us hp f init :=
  lazymatch goal with
  | |- context [run_block _ None (SRange _ _ _ _ :: _) ?st] =>
      let mk := red_upd (fun s => updh (us s) (hp s) st) in
      let i := fresh "i" in let a := fresh "a" in let s := fresh "s" in
      let Hi := fresh "Hi" in let Hn := fresh "Hn" in
      erewrite plug_exec;
        [ | eapply (ex_range_run _ mk (fun (_ : Z) a s => match f a s with inl s' => inl s' | inr (r, s') => inr (r, mk s') end))
              with (s0 := init);
            [ev | intros i a s Hi Hn; red_env] ];
        [ rewrite (rrun_stop mk f) | ]
  end.
Tactic Notation "range_stop" constr(us) constr(hp) constr(f) "from" constr(init) := rngs us hp f init.

Section Panics.
  Variable n : nat.
  Lemma ex_range_panic k v e body st st1 : EV n e st = (Panic, st1) -> EX n (SRange k v e body) st = (Panic, st1).
  Proof. intros H. cbn [exec]. unfold xbind. now rewrite H. Qed.
  Lemma ev_prim_panic f es st st1 : x_map (EV n) es st = (Panic, st1) -> EV n (XPrim f es) st = (Panic, st1).
  Proof. intros H. cbn [eval]. unfold xbind. now rewrite H. Qed.
  Lemma ev_slc_panic e lo st st1 st2 v a :
    EV n e st = (Ok v, st1) -> EV n lo st1 = (Ok a, st2) -> v_slice v (Some a) None = Panic ->
    EV n (XSlc e (Some lo) None) st = (Panic, st2).
  Proof. intros H1 H2 H3. cbn [eval]. unfold xbind, xret. rewrite H1, H2. unfold xlift. now rewrite H3. Qed.
End Panics.

(* ---- lines and tokens ---- *)

Lemma atoi_cases s : (exists z, atoi s = Ok z) \/ (exists e, atoi s = Err e).
Proof.
  cbv beta delta [atoi]. match goal with |- context [let finish := ?f in _] => set (F := f) end.
  assert (X : forall neg body, (exists z, F neg body = Ok z) \/ (exists e, F neg body = Err e)).
  { intros neg body. unfold F. destruct body as [|c body]; [eauto|]. destruct (digits_val _ _) as [v|]; [|eauto].
    cbv zeta. destruct (_ && _); eauto. }
  clearbody F. cbv zeta. destruct s as [|c s']; [apply X|]. destruct c as [[] [] [] [] [] [] [] []]; apply X.
Qed.

Definition no_const : val := v_const (mkQConst "" []).
Definition tok_turn (flt : list Z) (t : string) (m : bmap) : bmap + res flow * bmap :=
  match atoi t with
  | Ok val => inl (if existsb (Z.eqb (iAbs val)) flt then bset (iAbs val) (0 <? val) m else m)
  | Err e => inr (Ok (FRet (Some [no_const; VErr e []])), m)
  | _ => inr (Panic, m)
  end.
Definition line_turn (flt : list Z) (line : string) (m : bmap) : bmap + res flow * bmap :=
  match line with
  | EmptyString => inl m
  | String a _ =>
      if Ascii.eqb a "v"%char then
        match drop2 line with
        | Ok body => rstop (tok_turn flt) (split_on sp body) m
        | _ => inr (Panic, m)
        end
      else inl m
  end.

(* the model's maps keep what was overwritten *)
Definition same_map (m m' : bmap) : Prop := forall k, bget m k = bget m' k.
Lemma same_cons m m' k b : same_map m m' -> same_map (bset k b m) ((k, b) :: m').
Proof. intros H x. rewrite bget_set, (H x). reflexivity. Qed.
Definition ends_as {A} (P : A -> bmap -> Prop) (r : res A) (p : bmap + res flow * bmap) : Prop :=
  match r with
  | Ok a => exists m, p = inl m /\ P a m
  | Err e => exists m, p = inr (Ok (FRet (Some [no_const; VErr e []])), m)
  | Panic => exists m, p = inr (Panic, m)
  | Hang => False
  end.
Definition same_res := @ends_as bmap (fun m m' => same_map m' m).
Lemma tokens_same flt : forall toks m m',
  same_map m' m -> same_res (parse_tokens flt toks m) (rstop (tok_turn flt) toks m').
Proof.
  induction toks as [|t toks IH]; intros m m' H; cbn [parse_tokens rstop]; [now exists m'|].
  unfold tok_turn at 1. destruct (atoi_cases t) as [(z & ->)|(e & ->)]; cbn [rbind].
  - apply IH. destruct (existsb _ _); [now apply same_cons | exact H].
  - now exists m'.
Qed.
Lemma drop2_cases l : (exists b, drop2 l = Ok b) \/ drop2 l = Panic.
Proof. destruct l as [|a [|b r]]; cbn; eauto. Qed.
Lemma lines_same flt : forall lines m m',
  same_map m' m -> same_res (parse_lines flt lines m) (rstop (line_turn flt) lines m').
Proof.
  induction lines as [|l lines IH]; intros m m' H; cbn [parse_lines rstop]; [now exists m'|].
  unfold line_turn at 1. destruct l as [|a l]; [now apply IH|]. destruct (Ascii.eqb a "v"%char); [|now apply IH].
  destruct (drop2_cases (String a l)) as [(b & ->)| ->]; cbn [rbind]; [|now exists m'].
  pose proof (tokens_same flt (split_on sp b) m m' H) as X.
  destruct (parse_tokens flt (split_on sp b) m) as [m1|e| |]; cbn [rbind same_res ends_as] in *.
  - destruct X as (m2 & -> & X). now apply IH.
  - destruct X as (m2 & ->). now exists m2.
  - destruct X as (m2 & ->). now exists m2.
  - exact X.
Qed.

(* 'v' *)
Lemma byte_v a : (Z.of_nat (nat_of_ascii a) =? 118) = Ascii.eqb a "v"%char.
Proof.
  destruct (Ascii.eqb_spec a "v"%char) as [->|N]; [reflexivity|]. apply Z.eqb_neq. intros E. apply N.
  rewrite <- (ascii_nat_embedding a). now replace (nat_of_ascii a) with 118%nat by lia.
Qed.
Lemma substring_all s : substring 0 (String.length s) s = s.
Proof. induction s as [|c s IH]; [reflexivity|]. cbn. now rewrite IH. Qed.
Lemma slice_drop2 l :
  v_slice (VStr l) (Some (VInt 2)) None = match drop2 l with Ok b => Ok (VStr b) | _ => Panic end.
Proof.
  destruct l as [|a [|b l]]; [reflexivity..|]. cbn [v_slice v_len rbind drop2 String.length].
  replace ((0 <=? 2) && (2 <=? Z.of_nat (Datatypes.S (Datatypes.S (String.length l)))) && _) with true by lia.
  change (Z.to_nat 2) with 2%nat. cbn [substring]. replace (Z.to_nat _) with (String.length l) by lia. now rewrite substring_all.
Qed.

(* ---- values ---- *)

Definition read_step (v : QVar) (m : bmap) (i : Z) (p : list FeatV * varman) : list FeatV * varman :=
  let '(val, vm) := p in
  let (b, vm) := CNFVar vm (v, i, BOT) in
  if bget m b then (val ++ [BOT], vm)
  else
    let (o, vm) := CNFVar vm (v, i, ONE) in
    if bget m o then (val ++ [ONE], vm)
    else
      let (z, vm) := CNFVar vm (v, i, ZERO) in
      if bget m z then (val ++ [ZERO], vm) else (val, vm).
Lemma read_same v m m' d vm : same_map m' m ->
  read_value vm d v m = fold_left (fun s i => read_step v m' i s) (zrange 0 (Z.of_nat d)) ([], vm).
Proof.
  intros H. unfold read_value. generalize (zrange 0 (Z.of_nat d)) as l. intros l. generalize ([] : list FeatV, vm) as p.
  induction l as [|i l IH]; intros p; [reflexivity|]. cbn [fold_left]. rewrite IH. f_equal. destruct p as [val vm1].
  unfold read_step. destruct (CNFVar vm1 (v, i, BOT)) as [b vm2]. rewrite (H b). destruct (bget m b); [reflexivity|].
  destruct (CNFVar vm2 (v, i, ONE)) as [o vm3]. rewrite (H o). destruct (bget m o); [reflexivity|].
  destruct (CNFVar vm3 (v, i, ZERO)) as [z vm4]. now rewrite (H z).
Qed.

Definition value_run (s : scoper) (M : model) (g : heap) (r : res QConst * ctx) : res (list val) * heap :=
  match r with
  | (Ok k, c) => (Ok [v_const k; VNil], hc s M g (cVM c))
  | (Err e, c) => (Ok [no_const; VErr e []], hc s M g (cVM c))
  | (Panic, c) => (Panic, hc s M g (cVM c))
  | (Hang, c) => (Hang, hc s M g (cVM c))
  end.
Ltac func_at fn :=
  lazymatch goal with
  | |- context [gocall (Datatypes.S ?n) _ _ _] =>
      erewrite (call_intro n _ fn);
        [ | vm_compute; reflexivity | reflexivity
          | cbv beta iota delta [fbody fn]; reflexivity
          | cbv beta iota delta [fparams fn]; reflexivity ];
      red_env
  end.
Lemma go_varValueFromBytes n s M g vm out v :
  (Dim M + 3 <= n)%nat ->
  gocall n "compute.varValueFromBytes" [VStr out; VStr v; VPtr 0] (hc s M g vm)
  = value_run s M g (varValueFromBytes out v (mkCtx s vm M)).
Proof.
  intros Hn. destruct n as [|n]; [lia|].
  destruct (go_variableFilter n s M g vm v ltac:(lia)) as (fm & flt & vm1 & Ef & Hf & Eg).
  unfold varValueFromBytes. cbn [cModel cVM]. rewrite Ef.
  pose proof (lines_same flt (split_on nl out) [] [] (fun _ => eq_refl)) as L.
  pose proof set_idx_bmap as Hs.
  func_at src_compute_varValueFromBytes. stp. stp.
  erewrite plug_step; [|eapply ex_assign; [eapply ev_call; [evs | red_env; exact Eg | cbv beta iota delta [one]; reflexivity] | asg]].
  range_stop (fun m : bmap => [("vval"%string, VMap (v_bmap m))]) (fun m : bmap => hc s M g vm1) (line_turn flt) from ([] : bmap).
  - unfold same_res in L.
    destruct (parse_lines flt (split_on nl out) []) as [m|e| |]; cbn [ends_as] in L.
    + destruct L as (m' & -> & L). cbv iota. red_env. rewrite (read_same v m m' (Dim M) vm1 L), plug_seq_next.
      for_new "i"%string (fun p : list FeatV * varman => [("c"%string, v_const (mkQConst "" (fst p)))])
        (fun p : list FeatV * varman => hc s M g (snd p)) (read_step v m') from ([] : list FeatV, vm1) to (Z.of_nat (Dim M)).
      * destruct (fold_left _ _ _) as [val vm2]. red_env. cbn [fst snd]. sts. reflexivity.
      * destruct s0 as [val vm0]. cbn [fst snd]. unfold read_step. unfold BOT, ZERO, ONE.
        unfold v_const, v_feats. cbn [cID cVal]. stp.
        destruct (CNFVar vm0 (v, i, 0)) as [b vm2]. cbn [fst snd].
        destruct (bget m' b); [cbn [fst snd]; rewrite map_app; sts; endbody|]. stp. stp.
        destruct (CNFVar vm2 (v, i, 2)) as [o vm3]. cbn [fst snd].
        destruct (bget m' o); [cbn [fst snd]; rewrite map_app; sts; endbody|]. stp. stp.
        destruct (CNFVar vm3 (v, i, 1)) as [z vm4]. cbn [fst snd].
        destruct (bget m' z); [cbn [fst snd]; rewrite map_app; sts; endbody|]. cbn [fst snd]. sts. endbody.
    + destruct L as (m' & ->). cbv iota. sts. reflexivity.
    + destruct L as (m' & ->). cbv iota. sts. reflexivity.
    + elim L.
  - destruct a as [|ch line]; cbn [line_turn].
    { erewrite plug_if; [|blk|eapply ev_or_t; ev]. sts. endbody. }
    assert (Hc : (if Z.of_nat (String.length (String ch line)) =? 0 then true
                  else if Z.of_nat (nat_of_ascii ch) =? 118 then false else true) = negb (Ascii.eqb ch "v"%char)).
    { rewrite byte_v. cbn [String.length]. replace (_ =? 0) with false by lia. now destruct (Ascii.eqb _ _). }
    pose proof (slice_drop2 (String ch line)) as Hsl.
    destruct (Ascii.eqb ch "v"%char); cbn [negb] in Hc.
    2:{ stp. rewrite Hc. cbv iota. sts. endbody. }
    destruct (drop2_cases (String ch line)) as [(body & Ed)|Ed]; rewrite Ed in Hsl |- *.
    2:{ stp. rewrite Hc. cbv iota. stp. split; [|exact Logic.I].
        erewrite plug_panic; [|eapply ex_range_panic, ev_prim_panic, xm_here_panic, ev_slc_panic; [ev | ev | exact Hsl]].
        sts. reflexivity. }
    remember (rstop (tok_turn flt) (split_on sp body) s0) as R eqn:ER.
    assert (W : plug n [KPop; KPop]
      (run_block (EX n) None
             [SIf []
                (XBin OOr (XBin OEq (XLen (XVar "line")) (XInt 0))
                   (XBin ONe (XIdx (XVar "line") (XInt 0)) (XInt 118)))
                [SContinue] [];
              SRange "_" "vb"
                (XPrim "bytes.Split"
                   [XSlc (XVar "line") (Some (XInt 2)) None; XStr " "])
                [SAssign [LNew "val"; LNew "err"]
                   [XPrim "strconv.Atoi" [XVar "vb"]];
                 SIf [] (XBin ONe (XVar "err") XNil)
                   [SReturn
                      [XStc "query.QConst" [("ID", XStr ""); ("Val", XLst [])];
                       XVar "err"]] [];
                 SAssign [LNew "absVal"] [XCall "compute.iAbs" [XVar "val"]];
                 SIf [] (XIdxZ (XVar "vfilter") (XVar "absVal") (XBool false))
                   [SAssign [LIdx (LVar "vval") (XVar "absVal")]
                      [XBin OGt (XVar "val") (XInt 0)]] []]]
        (mkMs [[]; [("line", VStr (String ch line))];
                [("vfilter", VMap (v_bmap fm)); ("vval", VMap (v_bmap s0)); ("c", VStc "query.QConst" [("ID", VStr ""); ("Val", VLst [])]);
                 ("out", VStr out); ("v", VStr v); ("ctx", VPtr 0)]] [] (hc s M g vm1)))
      = match R with
        | inl m => (Ok FNext, mkMs [[("vfilter", VMap (v_bmap fm)); ("vval", VMap (v_bmap m)); ("c", VStc "query.QConst" [("ID", VStr ""); ("Val", VLst [])]);
                 ("out", VStr out); ("v", VStr v); ("ctx", VPtr 0)]] [] (hc s M g vm1))
        | inr (r, m) => (r, mkMs [[("vfilter", VMap (v_bmap fm)); ("vval", VMap (v_bmap m)); ("c", VStc "query.QConst" [("ID", VStr ""); ("Val", VLst [])]);
                 ("out", VStr out); ("v", VStr v); ("ctx", VPtr 0)]] [] (hc s M g vm1))
        end /\ match R with inr (r, _) => stops (r, mkMs [] [] []) | _ => True end).
    { assert (W2 : match R with inr (r, _) => stops (r, mkMs [] [] []) | _ => True end).
      { subst R. clear. revert s0. induction (split_on sp body) as [|t l IH]; intros m; cbn [rstop]; [exact Logic.I|].
        unfold tok_turn at 1. destruct (atoi_cases t) as [(z & ->)|(e & ->)]; [apply IH | exact Logic.I]. }
      split; [|exact W2]. subst R.
      stp. rewrite Hc. cbv iota. stp.
      assert (Et : prim "bytes.Split" [VStr body; VStr " "] = Ok (VLst (map VStr (split_on sp body)))) by reflexivity.
      range_stop (fun m : bmap => [("vval"%string, VMap (v_bmap m))]) (fun m : bmap => hc s M g vm1) (tok_turn flt) from s0.
      - change (split_on " "%char body) with (split_on sp body).
        destruct (rstop (tok_turn flt) (split_on sp body) s0) as [m|[r m]]; [sts; reflexivity|].
        destruct r as [[]| | |]; cbn [stops fst] in W2; try (now elim W2); sts; reflexivity.
      - unfold tok_turn. destruct (atoi_cases a) as [(z & Ez)|(e & Ez)]; rewrite Ez.
        + assert (Ea : prim "strconv.Atoi" [VStr a] = Ok (VTup [VInt z; VNil])) by (cbn; now rewrite Ez).
          erewrite plug_step; [|eapply ex_assign2; [eapply ev_prim; [evs | exact Ea] | asg | asg]].
          stp. stp. stp. rewrite (Hf (iAbs z)). destruct (existsb (Z.eqb (iAbs z)) flt); sts; endbody.
        + assert (Ea : prim "strconv.Atoi" [VStr a] = Ok (VTup [VInt 0; VErr e []])) by (cbn; now rewrite Ez).
          erewrite plug_step; [|eapply ex_assign2; [eapply ev_prim; [evs | exact Ea] | asg | asg]].
          sts. split; [reflexivity | exact Logic.I]. }
    destruct R as [m|[r m]]; destruct W as [W W2].
    + exists FNext. split; [now left | exact W].
    + split; [exact W|]. exact W2.
Qed.

Lemma value_cases out v s vm M :
  exists vm' , (exists k, varValueFromBytes out v (mkCtx s vm M) = (Ok k, mkCtx s vm' M))
    \/ (exists e, varValueFromBytes out v (mkCtx s vm M) = (Err e, mkCtx s vm' M))
    \/ varValueFromBytes out v (mkCtx s vm M) = (Panic, mkCtx s vm' M).
Proof.
  unfold varValueFromBytes. cbn [cModel cVM]. destruct (variableFilter vm (Dim M) v) as [flt vm1].
  pose proof (lines_same flt (split_on nl out) [] [] (fun _ => eq_refl)) as L. unfold same_res in L.
  unfold set_vm. cbn [cScoper cModel].
  destruct (parse_lines flt (split_on nl out) []) as [m|e| |]; cbn [ends_as] in L.
  - destruct (read_value vm1 (Dim M) v m) as [val vm2]. exists vm2. left. eauto.
  - exists vm1. eauto.
  - exists vm1. eauto.
  - elim L.
Qed.

(* ---- compute/solver.go:120-135 ---- *)

Section Pad.
  Variable N : nat.
  Definition zero_const : QConst := mkQConst "" [].
  Definition pad (l : list QConst) : list QConst := firstn N (l ++ repeat zero_const N).
  Lemma pad_len l : length (pad l) = N.
  Proof. unfold pad. rewrite firstn_length, app_length, repeat_length. lia. Qed.
  Lemma pad_same l : length l = N -> pad l = l.
  Proof. intros H. unfold pad. rewrite firstn_app, H, Nat.sub_diag, firstn_O, app_nil_r, <- H. apply firstn_all. Qed.
End Pad.
Lemma list_set_len {A} (l : list A) i a : length (list_set l i a) = length l.
Proof. revert i. induction l as [|b l IH]; intros [|i]; cbn; auto. Qed.
Lemma list_set_map {A B} (f : A -> B) (l : list A) i a : list_set (map f l) i (f a) = map f (list_set l i a).
Proof. revert i. induction l as [|b l IH]; intros [|i]; cbn; [reflexivity..|]. now rewrite IH. Qed.
Lemma list_set_mid {A} (l : list A) x r y : list_set (l ++ x :: r) (length l) y = l ++ y :: r.
Proof. induction l as [|a l IH]; cbn; [reflexivity|]. now rewrite IH. Qed.

Definition vals_turn (N : nat) (out : string) (s : scoper) (M : model) (i : Z) (v : QVar) (p : list QConst * varman)
  : (list QConst * varman) + res flow * (list QConst * varman) :=
  let (arr, vm) := p in
  match varValueFromBytes out v (mkCtx s vm M) with
  | (Ok k, c) => inl (list_set (pad N arr) (Z.to_nat i) k, cVM c)
  | (Err e, c) => inr (Ok (FRet (Some [VLst []; VErr e []])), (arr, cVM c))
  | (Panic, c) => inr (Panic, (arr, cVM c))
  | (Hang, c) => inr (Hang, (arr, cVM c))
  end.
Lemma rrun_stopi {S A R} (mk : S -> ms) (f : Z -> A -> S -> S + R * S) : forall l i s,
  rrun (fun i a s => match f i a s with inl s' => inl s' | inr (r, s') => inr (r, mk s') end) i l s
  = match rrun f i l s with inl s' => inl s' | inr (r, s') => inr (r, mk s') end.
Proof.
  induction l as [|a l IH]; intros i s; [reflexivity|]. cbn [rrun]. destruct (f i a s) as [s'|[r s']]; [apply IH | reflexivity].
Qed.
Definition vals_end (done : list QConst) (r : res (list QConst) * ctx)
    (p : (list QConst * varman) + res flow * (list QConst * varman)) : Prop :=
  match r with
  | (Ok ks, c) => p = inl (done ++ ks, cVM c)
  | (Err e, c) => exists arr, p = inr (Ok (FRet (Some [VLst []; VErr e []])), (arr, cVM c))
  | (Panic, c) => exists arr, p = inr (Panic, (arr, cVM c))
  | (Hang, _) => False
  end.
Lemma vals_same out s M : forall vars N done vm,
  N = (length done + length vars)%nat ->
  vals_end done (Values out vars (mkCtx s vm M))
    (rrun (vals_turn N out s M) (Z.of_nat (length done)) vars (done ++ repeat zero_const (length vars), vm)).
Proof.
  induction vars as [|v vars IH]; intros N done vm HN; cbn [rrun Values length repeat].
  - reflexivity.
  - unfold vals_turn at 1.
    destruct (value_cases out v s vm M) as (vm' & [(k & ->)|[(e & ->)| ->]]); cbn [cVM vals_end]; [|eauto..].
    assert (L : length (done ++ zero_const :: repeat zero_const (length vars)) = N).
    { cbn in HN. rewrite app_length. cbn [length]. rewrite repeat_length. lia. }
    rewrite (pad_same N) by exact L. rewrite Nat2Z.id, list_set_mid.
    specialize (IH N (done ++ [k]) vm'). rewrite app_length in IH. cbn [length] in IH, HN.
    rewrite <- app_assoc in IH. cbn [app] in IH.
    replace (Z.of_nat (length done) + 1) with (Z.of_nat (length done + 1)) by lia.
    specialize (IH ltac:(lia)). destruct (Values out vars (mkCtx s vm' M)) as [[ks|e| |] c]; cbn [vals_end] in *; auto.
    now rewrite <- app_assoc in IH.
Qed.
(* the other parts of the context are not touched *)
Lemma Values_ctx out s M : forall vars vm r c, Values out vars (mkCtx s vm M) = (r, c) -> c = mkCtx s (cVM c) M.
Proof.
  induction vars as [|v vars IH]; intros vm r c; cbn [Values]; [now intros [= <- <-]|].
  destruct (value_cases out v s vm M) as (vm' & [(k & ->)|[(e & ->)| ->]]); [|now intros [= <- <-]..].
  specialize (IH vm'). destruct (Values out vars (mkCtx s vm' M)) as [[ks|e| |] c1]; intros [= <- <-]; now eapply IH.
Qed.

(* compute/solver.go:38-41 *)
Definition v_solver (path out : string) : val :=
  VStc "compute.binSolver" [("output", VStr out); ("solverPath", VStr path)].
Definition values_run (path out : string) (s : scoper) (M : model) (g : heap) (r : res (list QConst) * ctx) : res (list val) * heap :=
  match r with
  | (Ok ks, c) => (Ok [v_solver path out; VLst (map v_const ks); VNil], hc s M g (cVM c))
  | (Err e, c) => (Ok [v_solver path out; VLst []; VErr e []], hc s M g (cVM c))
  | (Panic, c) => (Panic, hc s M g (cVM c))
  | (Hang, c) => (Hang, hc s M g (cVM c))
  end.
Lemma go_Values n s M g vm path out vars :
  (Dim M + 4 <= n)%nat ->
  gocall n "compute.binSolver.Values" [v_solver path out; VLst (map VStr vars); VPtr 0] (hc s M g vm)
  = values_run path out s M g (Values out vars (mkCtx s vm M)).
Proof.
  intros Hn. destruct n as [|n]; [lia|].
  pose proof (vals_same out s M vars (length vars) [] vm eq_refl) as L.
  assert (Hmake : v_make (VStc "query.QConst" [("ID"%string, VStr ""); ("Val"%string, VLst [])]) (VInt (Z.of_nat (length vars)))
      = Ok (VLst (map v_const (repeat zero_const (length vars))))).
  { cbn [v_make]. replace (Z.of_nat (length vars) <? 0) with false by lia. rewrite Nat2Z.id.
    do 2 f_equal. clear. induction (length vars) as [|N IH]; [reflexivity|]. cbn [repeat map]. now f_equal. }
  assert (Hset : forall arr i k, 0 <= i -> (Z.to_nat i < length vars)%nat ->
      v_set_index (VLst (map v_const (pad (length vars) arr))) (VInt i) (v_const k)
      = Ok (VLst (map v_const (list_set (pad (length vars) arr) (Z.to_nat i) k)))).
  { intros arr i k H1 H2. cbn [v_set_index]. unfold sset. replace (i <? 0) with false by lia.
    rewrite map_length, pad_len. replace (_ <? _)%nat with true by (symmetry; apply Nat.ltb_lt; lia).
    cbn [rbind]. now rewrite list_set_map. }
  assert (Hrep : map v_const (repeat zero_const (length vars)) = map v_const (pad (length vars) (repeat zero_const (length vars)))).
  { f_equal. symmetry. apply pad_same, repeat_length. }
  func_at src_compute_binSolver_Values.
  erewrite plug_step; [|eapply ex_assign; [eapply ev_make; [ev | ev | exact Hmake] | asg]].
  rewrite Hrep.
  lazymatch goal with
  | |- context [run_block _ None (SRange _ _ _ _ :: _) ?st] =>
      let mk := red_upd (fun s0 : list QConst * varman => updh [("out"%string, VLst (map v_const (pad (length vars) (fst s0))))] (hc s M g (snd s0)) st) in
      erewrite plug_exec;
        [ | eapply (ex_range_run _ mk (fun i a s1 => match vals_turn (length vars) out s M i a s1 with inl s' => inl s' | inr (r, s') => inr (r, mk s') end))
              with (s0 := (repeat zero_const (length vars), vm));
            [ev | intros i a p Hi Ha; red_env] ];
        [ rewrite (rrun_stopi mk (vals_turn (length vars) out s M)) | ]
  end.
  - cbn [length] in L. change (Z.of_nat 0) with 0 in L. cbn [app] in L.
    destruct (Values out vars (mkCtx s vm M)) as [[ks|e| |] c] eqn:EV; cbn [vals_end] in L.
    + rewrite L. cbn [fst snd app]. 
      assert (Hk : length ks = length vars).
      { clear -EV. revert ks c EV. generalize (mkCtx s vm M) as c0. induction vars as [|v vars IH]; intros c0 ks c; cbn [Values].
        - now intros [= <- <-].
        - destruct (varValueFromBytes out v c0) as [[k|e| |] c1]; try discriminate.
          destruct (Values out vars c1) as [[ks'|e| |] c2] eqn:E; try discriminate. intros [= <- <-]. cbn. f_equal. exact (IH _ _ _ E). }
      rewrite (pad_same _ ks) by exact Hk. sts. reflexivity.
    + destruct L as (arr & ->). cbv iota. cbn [fst snd]. sts. reflexivity.
    + destruct L as (arr & ->). cbv iota. cbn [fst snd]. sts. reflexivity.
    + elim L.
  - destruct p as [arr vm0]. cbn [fst snd]. unfold vals_turn.
    pose proof (go_varValueFromBytes n s M g vm0 out a ltac:(lia)) as Hv.
    assert (Hi2 : (Z.to_nat i < length vars)%nat) by (apply nth_error_Some; now rewrite Ha).
    destruct (value_cases out a s vm0 M) as (vm' & [(k & Ev)|[(e & Ev)|Ev]]); rewrite Ev in Hv |- *; cbn [value_run cVM fst snd] in Hv |- *.
    + erewrite plug_step; [|eapply ex_assign2; [eapply ev_call; [evs | red_env; exact Hv | cbv beta iota delta [one]; reflexivity] | asg | asg]].
      stp. rewrite (pad_same _ (list_set _ _ _)) by (rewrite list_set_len; apply pad_len).
      erewrite plug_step; [|eapply ex_assign; [ev | eapply as_idx; [ev | rd | apply Hset; assumption | asg]]].
      sts. endbody.
    + split; [|exact Logic.I].
      erewrite plug_step; [|eapply ex_assign2; [eapply ev_call; [evs | red_env; exact Hv | cbv beta iota delta [one]; reflexivity] | asg | asg]].
      sts. reflexivity.
    + split; [|exact Logic.I].
      erewrite plug_panic; [|eapply ex_assign2_panic; eapply ev_call_panic; [evs | red_env; exact Hv]]. sts. reflexivity.
Qed.
