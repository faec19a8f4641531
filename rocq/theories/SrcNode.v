(* The text of query/predicates/isnode and query/extensions/allcomp against the model. *)
From Verif Require Import GoBase GoLemmas Cnf Query Walk Atoms Logop GoLang GoSource SrcBase SrcLemmas SrcCnf SrcQuery SrcCtx SrcPred Size QueryLemmas TreeLemmas Total.
Local Open Scope string_scope.
Local Open Scope Z_scope.
Local Open Scope list_scope.

Lemma idx_clauses F z cl : sget F z = Ok cl -> v_index (v_clauses F) (VInt z) = Ok (v_clause cl).
Proof. intros H. unfold v_clauses, v_index. now rewrite sget_map, H. Qed.
Lemma idx_clauses_panic F z : sget F z = Panic -> v_index (v_clauses F) (VInt z) = Panic.
Proof. intros H. unfold v_clauses, v_index. now rewrite sget_map, H. Qed.
Lemma list_set_map {A B} (f : A -> B) l i a : list_set (map f l) i (f a) = map f (list_set l i a).
Proof. revert i. induction l as [|x l IH]; intros [|i]; cbn; [reflexivity..|]. now rewrite IH. Qed.
Lemma sset_map {A B} (f : A -> B) l i a :
  sset (map f l) i (f a) = match sset l i a with Ok l' => Ok (map f l') | Err e => Err e | Panic => Panic | Hang => Hang end.
Proof.
  unfold sset. destruct (i <? 0); [reflexivity|]. rewrite map_length.
  destruct (Z.to_nat i <? length l)%nat; [|reflexivity]. now rewrite list_set_map.
Qed.
Lemma sget_sset {A} (l : list A) i a b : sget l i = Ok a -> sset l i b = Ok (list_set l (Z.to_nat i) b).
Proof.
  unfold sget, sset. destruct (i <? 0); [discriminate|].
  destruct (nth_error l (Z.to_nat i)) eqn:E; [|discriminate]. intros _.
  assert (Hl : (Z.to_nat i < length l)%nat) by (apply nth_error_Some; congruence).
  apply Nat.ltb_lt in Hl. now rewrite Hl.
Qed.
Lemma set_idx_clauses F z cl cl' :
  sget F z = Ok cl -> v_set_index (v_clauses F) (VInt z) (v_clause cl') = Ok (v_clauses (list_set F (Z.to_nat z) cl')).
Proof.
  intros H. unfold v_clauses, v_set_index. rewrite sset_map. now rewrite (sget_sset _ _ _ _ H).
Qed.

(* Range loops that may panic. *)
Fixpoint iopt {A T} (f : Z -> A -> T -> option T) (i : Z) (l : list A) (s : T) : T + T :=
  match l with
  | [] => inl s
  | a :: r => match f i a s with Some s' => iopt f (i + 1) r s' | None => inr s end
  end.
Lemma rrun_opt {A T} (f : Z -> A -> T -> option T) (mk : T -> ms) i l s :
  rrun (fun i a s => match f i a s with Some s' => inl s' | None => inr (@Panic flow, mk s) end) i l s
  = match iopt f i l s with inl s => inl s | inr s => inr (Panic, mk s) end.
Proof.
  revert i s. induction l as [|a l IH]; intros i s; [reflexivity|]. cbn [rrun iopt].
  destruct (f i a s); [apply IH | reflexivity].
Qed.
Ltac rngo us hp stp init :=
  lazymatch goal with
  | |- context [run_block _ None (SRange _ _ _ _ :: _) ?st] =>
      let mk := red_upd (fun s => updh (us s) (hp s) st) in
      let i := fresh "i" in let a := fresh "a" in let s := fresh "s" in
      let Hi := fresh "Hi" in let Hn := fresh "Hn" in
      erewrite plug_exec;
        [ | eapply (ex_range_run _ mk (fun i a s => match stp i a s with Some s' => inl s' | None => inr (@Panic flow, mk s) end))
              with (s0 := init);
            [ev | intros i a s Hi Hn; red_env] ];
        [ rewrite (rrun_opt stp mk) | ]
  end.
Tactic Notation "range_opt" constr(us) constr(hp) constr(stp) "from" constr(init) := rngo us hp stp init.

(* ---- variables made before their clauses ---- *)

(* the literals of cl are known, with the numbers k *)
Definition known (vm : varman) (cl : sclause) (k : clause) : Prop :=
  Forall2 (fun l z => exists m, vlookup (vm_vars vm) (snd l) = Some m /\ z = if fst l : bool then m else - m) cl k.
Lemma known_alloc vm cl k : known vm cl k -> alloc_clause vm cl = (k, vm).
Proof.
  induction 1 as [|[b t] z cl k (m & E & ->) H IH]; [reflexivity|]. cbn [alloc_clause].
  cbn [snd] in E. unfold CNFVar. rewrite E, IH. reflexivity.
Qed.
Lemma known_allocs vm cls F : Forall2 (known vm) cls F -> alloc_clauses vm cls = (F, vm).
Proof.
  induction 1 as [|cl k cls F H HF IH]; [reflexivity|]. cbn [alloc_clauses].
  now rewrite (known_alloc _ _ _ H), IH.
Qed.
Lemma keeps vm t u m : vlookup (vm_vars vm) u = Some m -> vlookup (vm_vars (snd (CNFVar vm t))) u = Some m.
Proof.
  intros H. unfold CNFVar. destruct (vlookup (vm_vars vm) t) eqn:E; [exact H|]. cbn [snd vm_vars vlookup].
  destruct (varRep_eqb_spec t u) as [->|N]; [congruence | exact H].
Qed.
Lemma finds vm t : vlookup (vm_vars (snd (CNFVar vm t))) t = Some (fst (CNFVar vm t)).
Proof.
  unfold CNFVar. destruct (vlookup (vm_vars vm) t) eqn:E; [exact E|]. cbn [fst snd vm_vars vlookup].
  now destruct (varRep_eqb_spec t t).
Qed.
Lemma known_keeps vm t cl k : known vm cl k -> known (snd (CNFVar vm t)) cl k.
Proof.
  intros H. induction H as [|l z cl k (m & E & ->) H IH]; constructor; [|exact IH].
  exists m. split; [now apply keeps | reflexivity].
Qed.
Lemma knowns_keep vm t cls F : Forall2 (known vm) cls F -> Forall2 (known (snd (CNFVar vm t))) cls F.
Proof. induction 1; constructor; [now apply known_keeps | assumption]. Qed.

Lemma alloc_vars_app vm a b : alloc_vars vm (a ++ b) = alloc_vars (alloc_vars vm a) b.
Proof. revert vm. induction a as [|t a IH]; intros vm; [reflexivity|]. cbn. apply IH. Qed.

(* the clauses of isnode/var.go:43-46 *)
Lemma fcl_start v l : forall vm acc S,
  Forall2 (known vm) S acc ->
  let p := addp (map (fun i => [Lp v i BOT]) l) (acc, vm) in
  Forall2 (known (snd p)) (S ++ map (fun i => [Lp v i BOT]) l) (fst p)
  /\ snd p = alloc_vars vm (map (fun i => (v, i, BOT)) l).
Proof.
  induction l as [|i l IH]; intros vm acc S H p.
  - unfold p. cbn [map]. rewrite addp_nil, app_nil_r. now split.
  - unfold p. cbn [map alloc_vars].
    change (?x :: map ?f l) with ([x] ++ map f l). rewrite addp_app.
    assert (Ea : addp [[Lp v i BOT]] (acc, vm) = (acc ++ [[fst (CNFVar vm (v, i, BOT))]], snd (CNFVar vm (v, i, BOT)))).
    { unfold addp. cbn [fst snd]. rewrite alloc_one. cbn. now destruct (CNFVar vm (v, i, BOT)). }
    rewrite Ea.
    specialize (IH (snd (CNFVar vm (v, i, BOT))) (acc ++ [[fst (CNFVar vm (v, i, BOT))]]) (S ++ [[Lp v i BOT]])).
    pose proof (finds vm (v, i, BOT)) as Ef.
    destruct (CNFVar vm (v, i, BOT)) as [m vm1] eqn:E. cbn [fst snd] in *.
    assert (E1 : vm1 = snd (CNFVar vm (v, i, BOT))) by now rewrite E.
    rewrite app_assoc. apply IH. apply Forall2_app.
    + rewrite E1. now apply knowns_keep.
    + constructor; [|constructor]. constructor; [|constructor]. exists m. now split.
Qed.

Lemma Forall2_sget {A B} (P : A -> B -> Prop) l m i :
  Forall2 P l m ->
  match sget l i, sget m i with
  | Ok a, Ok b => P a b
  | Panic, Panic => True
  | _, _ => False
  end.
Proof.
  intros H. unfold sget. destruct (i <? 0); [exact Logic.I|]. generalize (Z.to_nat i) as k.
  induction H as [|a b l m Hab H IH]; intros [|k]; cbn; [exact Logic.I..|exact Hab|apply IH].
Qed.
Lemma Forall2_set {A B} (P : A -> B -> Prop) l m i a b :
  Forall2 P l m -> P a b -> Forall2 P (list_set l i a) (list_set m i b).
Proof.
  intros H Hab. revert i. induction H as [|x y l m Hxy H IH]; intros [|i]; cbn; constructor; auto.
Qed.

(* isnode/var.go:48-53 on numbers *)
Definition fcl_step (r : string) (i : Z) (nd : node) (p : list clause * varman) : option (list clause * varman) :=
  if IsLeaf nd then Some p
  else match sget (fst p) (nFeat nd) with
       | Ok cl => Some (list_set (fst p) (Z.to_nat (nFeat nd)) (cl ++ fst (alloc_clause (snd p) [Lp r 0 i])),
                        snd (alloc_clause (snd p) [Lp r 0 i]))
       | _ => None
       end.
Lemma alloc_lit vm v i x :
  alloc_clause vm [Lp v i x] = ([fst (CNFVar vm (v, i, x))], snd (CNFVar vm (v, i, x))).
Proof. cbn. now destruct (CNFVar vm (v, i, x)). Qed.
Lemma fcl_panic r l : fold_left (isnode_fcl_step r) l Panic = Panic.
Proof. induction l as [|a l IH]; [reflexivity|]. apply IH. Qed.
Lemma fcl_run r nodes : forall i S F vm,
  Forall2 (known vm) S F ->
  match fold_left (isnode_fcl_step r) (mapi_from i pair nodes) (Ok S) with
  | Ok S' => exists F' vm', iopt (fcl_step r) i nodes (F, vm) = inl (F', vm')
      /\ Forall2 (known vm') S' F'
      /\ vm' = alloc_vars vm (concat (mapi_from i (fun i n => if IsLeaf n then [] else [(r, 0, i)]) nodes))
  | Panic => exists p, iopt (fcl_step r) i nodes (F, vm) = inr p
  | _ => False
  end.
Proof.
  induction nodes as [|nd nodes IH]; intros i S F vm H; cbn [mapi_from fold_left iopt concat].
  { exists F, vm. repeat split. exact H. }
  unfold isnode_fcl_step at 2, fcl_step at 1 3. cbn [rbind fst snd]. rewrite !alloc_lit.
  destruct (IsLeaf nd); [apply IH, H|].
  pose proof (Forall2_sget _ _ _ (nFeat nd) H) as G.
  destruct (sget S (nFeat nd)) as [cl| | |] eqn:E1, (sget F (nFeat nd)) as [k| | |] eqn:E2; try contradiction.
  2:{ cbn [rbind]. rewrite fcl_panic. eauto. }
  cbn [rbind]. rewrite (sget_sset _ _ _ _ E1). cbn [app alloc_vars].
  apply IH. apply Forall2_set; [now apply knowns_keep|].
  apply Forall2_app; [now apply known_keeps|]. constructor; [|constructor].
  exists (fst (CNFVar vm (r, 0, i))). split; [apply finds | reflexivity].
Qed.

Lemma ev_app_panic n e l st st1 : EV n e st = (Panic, st1) -> EV n (XApp e l) st = (Panic, st1).
Proof. intros H. cbn [eval]. unfold xbind. now rewrite H. Qed.

(* ---- loops with a condition only ---- *)

(* One turn: go on, break, return or panic. *)
Inductive turn (T : Type) := TGo (s : T) | TBreak (s : T) | TStop (r : res flow) (s : T).
Inductive ended (T : Type) := WEnd (s : T) | WHang (s : T) | WStop (r : res flow) (s : T).
Arguments TGo {T}. Arguments TBreak {T}. Arguments TStop {T}.
Arguments WEnd {T}. Arguments WHang {T}. Arguments WStop {T}.
Fixpoint wrun {T} (cond : T -> bool) (step : T -> turn T) (fuel : nat) (s : T) : ended T :=
  match fuel with
  | O => WHang s
  | S f =>
      if cond s then
        match step s with
        | TGo s' => wrun cond step f s'
        | TBreak s' => WEnd s'
        | TStop r s' => WStop r s'
        end
      else WEnd s
  end.
Definition halts (r : res flow) : Prop :=
  match r with Ok (FRet _) | Err _ | Panic | Hang => True | _ => False end.
Lemma ex_while {T} n (mk : T -> ms) (P : T -> Prop) cond step c body st s0 :
  push [] st = mk s0 -> P s0 ->
  (forall s, P s -> EV n c (mk s) = (Ok (VBool (cond s)), mk s)) ->
  (forall s, P s -> cond s = true ->
    match step s with
    | TGo s' => P s' /\ exists fl, (fl = FNext \/ fl = FContinue) /\
        plug n [KPop] (run_block (EX n) None body (push [] (mk s))) = (Ok fl, mk s')
    | TBreak s' => plug n [KPop] (run_block (EX n) None body (push [] (mk s))) = (Ok FBreak, mk s')
    | TStop r s' => plug n [KPop] (run_block (EX n) None body (push [] (mk s))) = (r, mk s') /\ halts r
    end) ->
  EX n (SFor [] c [] body) st
  = match wrun cond step n s0 with
    | WEnd s => (Ok FNext, pop (mk s))
    | WHang s => (Hang, pop (mk s))
    | WStop r s => (r, pop (mk s))
    end.
Proof.
  intros H0 H1 H2 H3. erewrite ex_for_gen; [|reflexivity]. rewrite H0. clear H0.
  enough (G : forall fuel s, P s ->
    (let (r, s') := loop (xdo v <- EV n c ;; xlift (v_bool v))
             (fun s => plug n [KPop] (run_block (EX n) None body (push [] s)))
             (run_block (EX n) None []) fuel (mk s) in (r, pop s'))
    = match wrun cond step fuel s with
      | WEnd s => (Ok FNext, pop (mk s))
      | WHang s => (Hang, pop (mk s))
      | WStop r s => (r, pop (mk s))
      end) by (apply G, H1).
  induction fuel as [|f IH]; intros s Hs; [reflexivity|].
  cbn [loop wrun]. unfold xbind at 1 2. rewrite (H2 s Hs). unfold xlift at 1. cbn [v_bool].
  destruct (cond s) eqn:Ec; [|reflexivity]. unfold xbind at 1. specialize (H3 s Hs Ec).
  destruct (step s) as [s'|s'|r s'].
  - destruct H3 as (Hs' & fl & Hfl & ->). specialize (IH s' Hs').
    destruct Hfl as [-> | ->]; exact IH.
  - rewrite H3. reflexivity.
  - destruct H3 as (-> & Hr). destruct r as [[]| | |]; try contradiction; reflexivity.
Qed.

Lemma set_idx_feats l z x :
  0 <= z < Z.of_nat (length l) -> v_set_index (v_feats l) (VInt z) (VInt x) = Ok (v_feats (list_set l (Z.to_nat z) x)).
Proof.
  intros H. unfold v_feats, v_set_index. rewrite (sset_map VInt). unfold sset.
  replace (z <? 0) with false by lia. replace (Z.to_nat z <? length l)%nat with true; [reflexivity|].
  symmetry. apply Nat.ltb_lt. lia.
Qed.
Lemma map_rep {A B} (f : A -> B) a k : map f (repeat a k) = repeat (f a) k.
Proof. induction k as [|k IH]; [reflexivity|]. cbn. now rewrite IH. Qed.
Lemma set_fill {A} (x y : A) pre l : list_set (pre ++ x :: l) (length pre) y = pre ++ y :: l.
Proof. induction pre as [|a pre IH]; [reflexivity|]. cbn. now rewrite IH. Qed.

(* Range loops under an invariant. *)
Lemma range_keep {T A} (mk : T -> ms) (inj : A -> val) (P : T -> Prop) (step : Z -> A -> T -> T) body :
  forall l i s, P s ->
  (forall j a s, i <= j -> nth_error l (Z.to_nat (j - i)) = Some a -> P s ->
     P (step j a s) /\ exists fl, (fl = FNext \/ fl = FContinue) /\
                          body (VInt j, inj a) (mk s) = (Ok fl, mk (step j a s))) ->
    range_loop body (indexed i (map inj l)) (mk s) = (Ok FNext, mk (ifold step i l s)).
Proof.
  induction l as [|a l IH]; intros i s HP Hb; cbn; [reflexivity|].
  unfold xbind. pose proof (Hb i a s) as Hi.
  replace (i - i) with 0 in Hi by lia. specialize (Hi ltac:(lia) eq_refl HP).
  destruct Hi as (HP' & fl & Hfl & ->).
  assert (E : range_loop body (indexed (i + 1) (map inj l)) (mk (step i a s))
          = (Ok FNext, mk (ifold step (i + 1) l (step i a s)))).
  { apply IH; [exact HP'|]. intros j b s0 Hj Hn. apply Hb; [lia|].
    replace (Z.to_nat (j - i)) with (S (Z.to_nat (j - (i + 1)))) by lia. exact Hn. }
  destruct Hfl as [-> | ->]; exact E.
Qed.
Lemma ex_range_inv {T A} n (mk : T -> ms) (P : T -> Prop) (step : Z -> A -> T -> T)
    (inj : A -> val) k v e body st l s0 :
  EV n e st = (Ok (VLst (map inj l)), mk s0) -> P s0 ->
  (forall i a s, 0 <= i -> nth_error l (Z.to_nat i) = Some a -> P s ->
    P (step i a s) /\ exists fl, (fl = FNext \/ fl = FContinue) /\
     plug n [KPop; KPop] (run_block (EX n) None body
       (push [] (push (bind_name k (VInt i) (bind_name v (inj a) [])) (mk s))))
     = (Ok fl, mk (step i a s))) ->
  EX n (SRange k v e body) st = (Ok FNext, mk (ifold step 0 l s0)).
Proof.
  intros H1 HP H2.
  change (EX n (SRange k v e body) st) with
    ((xdo w <- EV n e ;; xdo l <- xlift (v_range w) ;;
      range_loop
        (fun p s => let (r, s') := x_scope [] (run_block (EX n) None body)
                      (push (bind_name k (fst p) (bind_name v (snd p) [])) s) in (r, pop s')) l) st).
  unfold xbind. rewrite H1. unfold xlift. cbn [v_range].
  apply (range_keep mk inj P step); [exact HP|]. intros i a s Hi Hn Hs.
  replace (i - 0) with i in Hn by lia. specialize (H2 i a s Hi Hn Hs).
  destruct H2 as (HP' & fl & Hfl & E). split; [exact HP'|]. exists fl. split; [exact Hfl|]. rewrite <- E.
  cbn [fst snd plug kstep].
  unfold x_scope. fold (push [] (push (bind_name k (VInt i) (bind_name v (inj a) [])) (mk s))).
  now destruct (run_block (EX n) None body _) as [r s'].
Qed.
Ltac rngk us hp stp P init :=
  lazymatch goal with
  | |- context [run_block _ None (SRange _ _ _ _ :: _) ?st] =>
      let mk := red_upd (fun s => updh (us s) (hp s) st) in
      let i := fresh "i" in let a := fresh "a" in let s := fresh "s" in
      let Hi := fresh "Hi" in let Hn := fresh "Hn" in let Hs := fresh "Hs" in
      erewrite plug_exec;
        [ | eapply (ex_range_inv _ mk P stp) with (s0 := init);
            [ev | | intros i a s Hi Hn Hs; red_env] ]
  end.
Tactic Notation "range_inv" constr(us) constr(hp) constr(stp) "from" constr(init) "keeping" constr(P) := rngk us hp stp P init.

(* isnode/const.go:93-105 *)
Lemma go_newVisitRecord n h d c :
  (1 <= n)%nat -> length (cVal c) = d ->
  gocall n "isnode.newVisitRecord" [VInt (Z.of_nat d); v_const c] h = (Ok [v_feats (newVisitRecord c)], h).
Proof.
  func src_isnode_newVisitRecord.
  assert (Em : v_make (VInt 0) (VInt (Z.of_nat d)) = Ok (v_feats (repeat 0 d))).
  { cbn [v_make]. replace (Z.of_nat d <? 0) with false by lia. rewrite Nat2Z.id. unfold v_feats.
    now rewrite map_rep. }
  stp.
  set (f := fun ft => if ft =? BOT then 1 else 0).
  set (stepv := fun (i : Z) (ft : FeatV) (l : list Z) => list_set l (Z.to_nat i) (f ft)).
  range_inv (fun l => [("vr"%string, v_feats l)]) (fun l : list Z => h) stepv
    from (repeat 0 d) keeping (fun l : list Z => length l = d).
  - assert (E : forall r pre, ifold stepv (Z.of_nat (length pre)) r (map f pre ++ repeat 0 (length r)) = map f (pre ++ r)).
    { induction r as [|ft r IH]; intros pre; cbn [length repeat ifold]; [now rewrite !app_nil_r|].
      unfold stepv at 2. rewrite Nat2Z.id.
      assert (E : list_set (map f pre ++ 0 :: repeat 0 (length r)) (length pre) (f ft) = map f pre ++ f ft :: repeat 0 (length r))
        by (rewrite <- (map_length f pre); apply set_fill).
      rewrite E.
      specialize (IH (pre ++ [ft])). rewrite app_length, map_app, <- !app_assoc in IH. cbn [length map app] in IH.
      replace (Z.of_nat (length pre) + 1) with (Z.of_nat (length pre + 1)) by lia. exact IH. }
    specialize (E (cVal c) []). cbn [map app length] in E. rewrite H0 in E. change (Z.of_nat 0) with 0 in E.
    rewrite E. sts. reflexivity.
  - apply repeat_length.
  - assert (Hb : (Z.to_nat i < length (cVal c))%nat) by (apply nth_error_Some; congruence).
    split; [unfold stepv; now rewrite list_set_length|].
    unfold stepv, f, BOT. stp.
    pose proof (set_idx_feats s i 1 ltac:(lia)). pose proof (set_idx_feats s i 0 ltac:(lia)).
    destruct (a =? 0); sts; endbody.
Qed.

(* for cond { ... } *)
Ltac whl us hp cond stp P init :=
  lazymatch goal with
  | |- context [run_block _ None (SFor [] _ [] _ :: _) ?st] =>
      let mk := red_upd (fun s => push [] (updh (us s) (hp s) st)) in
      let s := fresh "s" in let Hs := fresh "Hs" in let Hc := fresh "Hc" in
      erewrite plug_exec;
        [ | eapply (ex_while _ mk P cond stp) with (s0 := init);
            [ red_env; reflexivity | | intros s Hs; red_env; try ev | intros s Hs Hc; red_env] ]
  end.
Tactic Notation "while_inv" constr(us) constr(hp) constr(cond) constr(stp) "from" constr(init) "keeping" constr(P) :=
  whl us hp cond stp P init.

(* isnode/const.go:108-116 *)
Lemma go_allFeatsVisited n h l :
  (1 <= n)%nat -> gocall n "isnode.allFeatsVisited" [v_feats l] h = (Ok [VBool (allFeatsVisited l)], h).
Proof.
  func src_isnode_allFeatsVisited. stp.
  range_idx (fun z : Z => [("sum"%string, VInt z)]) (fun z : Z => h) (fun (i x z : Z) => z + x) from 0.
  - assert (E : forall l i z, ifold (fun _ x z : Z => z + x) i l z = fold_left Z.add l z)
      by (clear; induction l as [|x l IH]; intros i z; [reflexivity | apply IH]).
    rewrite E. sts. unfold allFeatsVisited. reflexivity.
  - sts. endbody.
Qed.
Global Hint Resolve go_newVisitRecord go_allFeatsVisited : gocall.

Lemma sget_vget val z : 0 <= z < Z.of_nat (length val) -> sget val z = Ok (vget val z).
Proof.
  intros H. unfold sget, vget. replace (z <? 0) with false by lia.
  now rewrite (nth_error_nth' val 0) by lia.
Qed.
(* One turn of isnode/const.go:39-80, with the record it leaves. *)
Definition node_fail (e : string) : res flow := Ok (FRet (Some [v_cnf TrueCNF; VErr e []])).
Definition node_turn (dim : nat) (nodes : list node) (val : list FeatV) (p : node * list Z) : turn (node * list Z) :=
  let (nd, visited) := p in
  if IsLeaf nd then TBreak p
  else if (nFeat nd <? 0) || (Z.of_nat dim <=? nFeat nd) then
    TStop (node_fail (feat_range_err (nFeat nd) dim)) p
  else
    let x := vget val (nFeat nd) in
    if x =? BOT then TBreak p
    else
      let visited' := list_set visited (Z.to_nat (nFeat nd)) 1 in
      if x =? ZERO then
        if (zChild nd <? 0) || (Z.of_nat (length nodes) <=? zChild nd) then
          TStop (node_fail ("Node's ZChild out of bounds " ++ itoa (zChild nd))) (nd, visited')
        else TGo (nth (Z.to_nat (zChild nd)) nodes nd, visited')
      else
        if (oChild nd <? 0) || (Z.of_nat (length nodes) <=? oChild nd) then
          TStop (node_fail ("Node's OChild out of bounds " ++ itoa (oChild nd))) (nd, visited')
        else TGo (nth (Z.to_nat (oChild nd)) nodes nd, visited').
Lemma node_turn_step dim nodes val nd visited :
  length val = dim -> length visited = dim ->
  isnode_step dim nodes val nd visited
  = match node_turn dim nodes val (nd, visited) with
    | TGo p => Ok (inl p)
    | TBreak p => Ok (inr (snd p))
    | TStop (Ok (FRet (Some [_; VErr e []]))) _ => Err e
    | TStop _ _ => Panic
    end.
Proof.
  intros Hv Hl. unfold isnode_step, node_turn.
  destruct (IsLeaf nd); [reflexivity|].
  destruct ((nFeat nd <? 0) || (Z.of_nat dim <=? nFeat nd)) eqn:Ef; [reflexivity|].
  assert (Eg : sget val (nFeat nd) = Ok (vget val (nFeat nd))) by (apply sget_vget; lia).
  rewrite Eg. cbn [rbind]. destruct (vget val (nFeat nd) =? BOT); [reflexivity|].
  assert (Es : sset visited (nFeat nd) 1 = Ok (list_set visited (Z.to_nat (nFeat nd)) 1)).
  { unfold sset. replace (nFeat nd <? 0) with false by lia.
    now replace (Z.to_nat (nFeat nd) <? length visited)%nat with true by (symmetry; apply Nat.ltb_lt; lia). }
  rewrite Es. cbn [rbind]. destruct (vget val (nFeat nd) =? ZERO).
  - destruct ((zChild nd <? 0) || (Z.of_nat (length nodes) <=? zChild nd)) eqn:Ez; [reflexivity|].
    unfold sget. replace (zChild nd <? 0) with false by lia. rewrite (nth_error_nth' nodes nd) by lia. reflexivity.
  - destruct ((oChild nd <? 0) || (Z.of_nat (length nodes) <=? oChild nd)) eqn:Ez; [reflexivity|].
    unfold sget. replace (oChild nd <? 0) with false by lia. rewrite (nth_error_nth' nodes nd) by lia. reflexivity.
Qed.

Lemma node_turn_len dim nodes val p q :
  node_turn dim nodes val p = TGo q -> length (snd q) = length (snd p).
Proof.
  destruct p as [nd vis]. unfold node_turn.
  destruct (IsLeaf nd); [discriminate|]. destruct (_ || _); [discriminate|]. cbv zeta.
  destruct (_ =? BOT); [discriminate|]. destruct (_ =? ZERO); destruct (_ || _); try discriminate;
    intros [= <-]; cbn [snd]; apply list_set_length.
Qed.
Lemma node_turn_stops dim nodes val p r q :
  node_turn dim nodes val p = TStop r q -> exists e, r = node_fail e.
Proof.
  destruct p as [nd vis]. unfold node_turn.
  destruct (IsLeaf nd); [discriminate|]. destruct (_ || _); [intros [= <- <-]; eauto|]. cbv zeta.
  destruct (_ =? BOT); [discriminate|]. destruct (_ =? ZERO); destruct (_ || _); try discriminate;
    intros [= <- <-]; eauto.
Qed.
Lemma node_wrun dim nodes val : length val = dim -> forall fuel nd vis, length vis = dim ->
  match isnode_loop fuel dim nodes val nd vis with
  | Ok v => exists nd', wrun (fun _ => true) (node_turn dim nodes val) fuel (nd, vis) = WEnd (nd', v)
  | Err e => exists p, wrun (fun _ => true) (node_turn dim nodes val) fuel (nd, vis) = WStop (node_fail e) p
  | Hang => exists p, wrun (fun _ => true) (node_turn dim nodes val) fuel (nd, vis) = WHang p
  | Panic => False
  end.
Proof.
  intros Hv. induction fuel as [|fuel IH]; intros nd vis Hl; cbn [isnode_loop wrun]; [eauto|].
  rewrite (node_turn_step _ _ _ _ _ Hv Hl).
  destruct (node_turn dim nodes val (nd, vis)) as [[nd' vis']|[nd' vis']|r p] eqn:E; cbn [rbind snd].
  - apply IH. rewrite <- Hl. exact (node_turn_len _ _ _ _ _ E).
  - eauto.
  - destruct (node_turn_stops _ _ _ _ _ _ E) as (e & ->). cbn. eauto.
Qed.
Lemma isnode_loop_more dim nodes val : forall fuel fuel' nd vis, (fuel <= fuel')%nat ->
  isnode_loop fuel dim nodes val nd vis <> Hang ->
  isnode_loop fuel' dim nodes val nd vis = isnode_loop fuel dim nodes val nd vis.
Proof.
  induction fuel as [|fuel IH]; intros [|fuel'] nd vis Hf H; try lia; [now destruct H..|].
  cbn [isnode_loop] in *. destruct (isnode_step dim nodes val nd vis) as [[[nd' vis']|v]| | |]; try reflexivity.
  cbn [rbind] in *. apply IH; [lia | exact H].
Qed.
(* The walk with any bound above the model's own. *)
Lemma isnode_fuels dim nodes c root fuel :
  length (cVal c) = dim -> hd_error nodes = Some root -> (length nodes + 1 <= fuel)%nat ->
  isnode_const dim nodes c
  = rdo vr <- isnode_loop fuel dim nodes (cVal c) root (newVisitRecord c) ;; Ok (allFeatsVisited vr).
Proof.
  intros Hc Hr Hf. pose proof (isnode_total dim nodes c Hc) as T. unfold isnode_const in *.
  destruct nodes as [|r ns] eqn:En; [discriminate|]. injection Hr as ->. rewrite <- En in *.
  assert (D : isnode_loop (isnode_fuel nodes) dim nodes (cVal c) root (newVisitRecord c) = Hang \/
              isnode_loop (isnode_fuel nodes) dim nodes (cVal c) root (newVisitRecord c) <> Hang)
    by (destruct (isnode_loop _ _ _ _ _ _); [right..|now left]; discriminate).
  destruct D as [D|D].
  - rewrite D in *. destruct T as [(r & T)|[(e & T)|(_ & T)]]; [discriminate..|].
    rewrite (T root); [reflexivity|]. now rewrite En.
  - rewrite (isnode_loop_more _ _ _ _ fuel _ _ Hf D). reflexivity.
Qed.

Lemma idx_nodes l z d : 0 <= z < Z.of_nat (length l) -> v_index (v_nodes l) (VInt z) = Ok (v_node (nth (Z.to_nat z) l d)).
Proof.
  intros H. unfold v_nodes, v_index. rewrite sget_map. unfold sget. replace (z <? 0) with false by lia.
  now rewrite (nth_error_nth' l d) by lia.
Qed.

Ltac orbs := repeat match goal with |- context [if ?a then true else ?b] => change (if a then true else b) with (a || b) end.

Section Nodes.
Variables (s : scoper) (M : model) (g : heap) (vm : varman).
Notation ENC n f a := (gocall n f [v_atom a; VPtr 0] (hc s M g vm)).
Notation C := (mkCtx s vm M).
Notation HC := (hc s M g).
Notation CL x := (fun p : list clause * varman => [(x%string, v_clauses (fst p))]).
Notation NC x := (fun p : CNF * varman => [(x%string, v_cnf (fst p))]).
Notation HL := (fun p : list clause * varman => HC (snd p)).
Notation HN := (fun p : CNF * varman => HC (snd p)).

Lemma go_NodeV n v k :
  (levels s + 5 <= n)%nat -> (Dim M + 4 <= n)%nat ->
  says g (ENC n "isnode.Var.Encoding" (NodeV v k)) (enc_atom (NodeV v k) C).
Proof.
  destruct k as [gen|].
  2:{ enter src_isnode_Var_Encoding. sts. reflexivity. }
  enter src_isnode_Var_Encoding. stp. stp. stp.
  destruct (Nodes M) as [|n0 ns] eqn:En; [sts; reflexivity|].
  rewrite <- En in *. assert (El : Z.of_nat (length (Nodes M)) =? 0 = false) by (rewrite En; reflexivity).
  stp. rewrite El. cbv iota. stp. stp. stp. scopevar v w. sts. cbn [rbind]. set (d := Z.of_nat (Dim M)).
  for_new "i" (CL "fcl") HL (fun i => addp [[Lp w i BOT]]) from (@nil clause, vm) to d.
  2:{ sts. endbody. }
  rewrite addp_map. red_env.
  range_opt (CL "fcl") HL (fcl_step (gen w)) from (addp (map (fun i => [Lp w i BOT]) (zrange 0 d)) (@nil clause, vm)).
  2:{ unfold fcl_step. stp. destruct (IsLeaf a); [sts; endbody|]. stp.
      destruct (sget_cases (fst s0) (nFeat a)) as [(cl & Eg)|Eg]; rewrite Eg.
      - pose proof (idx_clauses _ _ _ Eg) as E1.
        pose proof (set_idx_clauses _ _ _ (cl ++ fst (alloc_clause (snd s0) [Lp (gen w) 0 i])) Eg) as E2.
        sts. endbody.
      - pose proof (idx_clauses_panic _ _ Eg) as E1. split; [|exact Logic.I].
        erewrite plug_panic; [|eapply ex_assign_panic; eapply ev_app_panic; eapply ev_idx_panic; [ev|ev|exact E1]]. sts. reflexivity. }
  pose proof (fcl_start w (zrange 0 d) vm [] [] ltac:(constructor)) as (K & Ev). cbn [app] in K.
  pose proof (fcl_run (gen w) (Nodes M) 0 _ _ _ K) as R. unfold isnode_fcl, mapi. rewrite <- surjective_pairing in R.
  destruct (fold_left _ _ _) as [S'| | |]; try contradiction.
  2:{ destruct R as (q & ->). sts. reflexivity. }
  destruct R as (F & vm1 & -> & KF & Ev1). sts. cbn [rbind].
  assert (Ea : vm1 = alloc_vars vm (isnode_fcl_alloc d (Nodes M) w (gen w))).
  { unfold isnode_fcl_alloc. rewrite alloc_vars_app, <- Ev. exact Ev1. }
  pose proof (known_allocs _ _ _ KF) as Es.
  assert (Ep : emitp (ECons [[Lp (gen w) 0 0]]) (AppendSemantics TrueCNF F, vm1)
     = emitsp [EAlloc (isnode_fcl_alloc d (Nodes M) w (gen w)); ESem S'; ECons [[Lp (gen w) 0 0]]] (TrueCNF, vm)).
  { cbn [emitsp fold_left emitp fst snd]. now rewrite <- Ea, Es. }
  range_idx (NC "ncnf") HN (fun i nd => emitsp (if IsLeaf nd then [] else [ECons (isnode_reach w (gen w) i nd)]))
    from (emitp (ECons [[Lp (gen w) 0 0]]) (AppendSemantics TrueCNF F, vm1)).
  - rewrite emit_ifold, Ep, <- emitsp_app. sts. apply says_emits. symmetry. apply emitsp_start.
  - st1. unfold isnode_reach. destruct (IsLeaf a); sts; endbody.
Qed.

Lemma go_NodeC n c :
  (levels s + 5 <= n)%nat -> (length (Nodes M) + 3 <= n)%nat ->
  says g (ENC n "isnode.Const.Encoding" (NodeC c)) (enc_atom (NodeC c) C).
Proof.
  enter src_isnode_Const_Encoding. stp. const c k. stp.
  destruct (ValidateConstsDim (Dim M) [k]) eqn:Ev; [sts; reflexivity|].
  pose proof (valid_lens _ _ k Ev ltac:(now left)) as Hl.
  stp. stp. stp. stp. stp.
  destruct (Nodes M) as [|n0 ns] eqn:En; [sts; reflexivity|].
  rewrite <- En in *. assert (El : Z.of_nat (length (Nodes M)) =? 0 = false) by (rewrite En; reflexivity).
  rewrite El. cbv iota.
  assert (E0 : v_index (v_nodes (Nodes M)) (VInt 0) = Ok (v_node n0)) by (rewrite En; reflexivity).
  stp. stp.
  while_inv (fun p : node * list Z => [("node"%string, v_node (fst p)); ("visited"%string, v_feats (snd p))])
    (fun p : node * list Z => HC vm) (fun p : node * list Z => true) (node_turn (Dim M) (Nodes M) (cVal k))
    from (n0, newVisitRecord k) keeping (fun p : node * list Z => length (snd p) = Dim M).
  - assert (Hv : length (newVisitRecord k) = Dim M) by (unfold newVisitRecord; now rewrite map_length).
    assert (Hr : hd_error (Nodes M) = Some n0) by now rewrite En.
    rewrite (isnode_fuels (Dim M) (Nodes M) k n0 n Hl Hr) by lia.
    pose proof (node_wrun (Dim M) (Nodes M) (cVal k) Hl n n0 _ Hv) as W.
    destruct (isnode_loop n (Dim M) (Nodes M) (cVal k) n0 (newVisitRecord k)) as [v|e| |]; [| | contradiction |].
    + destruct W as (nd' & ->). red_env. cbn [fst snd rbind rbool guard]. stp. stp. destruct (allFeatsVisited v); sts; reflexivity.
    + destruct W as (p & ->). reflexivity.
    + destruct W as (p & ->). reflexivity.
  - cbn [snd]. unfold newVisitRecord. now rewrite map_length.
  - destruct s0 as [nd vis]. cbn [fst snd] in *.
    pose proof (node_turn_len (Dim M) (Nodes M) (cVal k) (nd, vis)) as HL.
    unfold node_turn, node_fail in *.
    destruct (IsLeaf nd) eqn:E1.
    { stp. rewrite E1. sts. reflexivity. }
    destruct ((nFeat nd <? 0) || (Z.of_nat (Dim M) <=? nFeat nd)) eqn:E2.
    { split; [|exact Logic.I]. stp. rewrite E1. cbv iota. stp. stp. orbs. rewrite E2. sts. reflexivity. }
    assert (E3 : v_index (v_feats (cVal k)) (VInt (nFeat nd)) = Ok (VInt (vget (cVal k) (nFeat nd))))
      by (apply idx_vget; lia).
    pose proof (set_idx_feats vis (nFeat nd) 1 ltac:(lia)) as E4.
    cbv zeta in *.
    destruct (vget (cVal k) (nFeat nd) =? BOT) eqn:E5; unfold BOT in E5.
    { stp. rewrite E1. cbv iota. stp. stp. orbs. rewrite E2. cbv iota. stp. stp. rewrite E5. sts. reflexivity. }
    destruct (vget (cVal k) (nFeat nd) =? ZERO) eqn:E6; unfold ZERO in E6.
    + destruct ((zChild nd <? 0) || (Z.of_nat (length (Nodes M)) <=? zChild nd)) eqn:E7.
      { split; [|exact Logic.I]. stp. rewrite E1. cbv iota. stp. stp. orbs. rewrite E2. cbv iota. stp. stp. rewrite E5. cbv iota.
        stp. stp. stp. rewrite E6. cbv iota. stp. orbs. rewrite E7. sts. rewrite sapp_nil_r. reflexivity. }
      assert (E8 : v_index (v_nodes (Nodes M)) (VInt (zChild nd)) = Ok (v_node (nth (Z.to_nat (zChild nd)) (Nodes M) nd)))
        by (apply idx_nodes; lia).
      split; [now rewrite (HL _ eq_refl)|]. stp. rewrite E1. cbv iota. stp. stp. orbs. rewrite E2. cbv iota. stp. stp. rewrite E5. cbv iota.
      stp. stp. stp. rewrite E6. cbv iota. stp. orbs. rewrite E7. cbv iota. sts. endbody.
    + destruct ((oChild nd <? 0) || (Z.of_nat (length (Nodes M)) <=? oChild nd)) eqn:E7.
      { split; [|exact Logic.I]. stp. rewrite E1. cbv iota. stp. stp. orbs. rewrite E2. cbv iota. stp. stp. rewrite E5. cbv iota.
        stp. stp. stp. rewrite E6. cbv iota. stp. stp. orbs. rewrite E7. sts. rewrite sapp_nil_r. reflexivity. }
      assert (E8 : v_index (v_nodes (Nodes M)) (VInt (oChild nd)) = Ok (v_node (nth (Z.to_nat (oChild nd)) (Nodes M) nd)))
        by (apply idx_nodes; lia).
      split; [now rewrite (HL _ eq_refl)|]. stp. rewrite E1. cbv iota. stp. stp. orbs. rewrite E2. cbv iota. stp. stp. rewrite E5. cbv iota.
      stp. stp. stp. rewrite E6. cbv iota. stp. stp. orbs. rewrite E7. cbv iota. sts. endbody.
Qed.
End Nodes.
