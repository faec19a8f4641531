(* The text of query/logop against the model: the Encoding of whole queries. *)
From Verif Require Import GoBase GoLemmas Cnf Query Walk Atoms Logop GoLang GoSource SrcBase SrcLemmas SrcCnf SrcQuery SrcCtx SrcPred SrcNode SrcExt SrcDfs SrcHepr SrcLeh SrcLehC SrcIter TreeLemmas WalkLemmas Total.
Local Open Scope string_scope.
Local Open Scope Z_scope.
Local Open Scope list_scope.

(* ---- what an encoding leaves of the scoper ---- *)

Fixpoint qheight (q : query) : nat :=
  match q with
  | QNil => 0
  | QAtom _ => 1
  | QNot q | QWith _ q | QAll _ q => S (qheight q)
  | QAnd q1 q2 | QOr q1 q2 => S (Nat.max (qheight q1) (qheight q2))
  end.

(* No variable recorded twice, levels at most L, k scopes. *)
Definition kept (L k : nat) (m : model) (c : ctx) : Prop :=
  NoDup (map fst (svars (cScoper c))) /\ (levels (cScoper c) <= L)%nat
  /\ length (scopes (cScoper c)) = k /\ cModel c = m.

Lemma slookup_none l v : slookup l v = None -> ~ In v (map fst l).
Proof.
  induction l as [|[x k] l IH]; [easy|]. cbn [slookup map fst]. destruct (String.eqb_spec x v) as [->|N]; [discriminate|].
  intros H [?|Hi]; [contradiction | now apply IH].
Qed.
Lemma NoDup_filter_fst {A B} (p : A * B -> bool) l : NoDup (map fst l) -> NoDup (map fst (filter p l)).
Proof.
  induction l as [|a l IH]; [easy|]. cbn [map filter]. intros H. inversion H as [|? ? H1 H2]; subst.
  destruct (p a); [|now apply IH]. cbn [map]. constructor; [|now apply IH].
  intros Hi. apply H1. apply in_map_iff in Hi as (x & E & Hx). apply filter_In in Hx as [Hx _].
  rewrite <- E. now apply in_map.
Qed.
Lemma list_max_filter {A} (f : A -> nat) p l : (list_max (map f (filter p l)) <= list_max (map f l))%nat.
Proof.
  induction l as [|a l IH]; [apply Nat.le_refl|]. cbn [filter map].
  change (list_max (?x :: ?y)) with (Nat.max x (list_max y)).
  destruct (p a); [cbn [map]; change (list_max (?x :: ?y)) with (Nat.max x (list_max y)); lia | lia].
Qed.

Lemma kept_AddVar L k m c v : kept L k m c -> (k <= L)%nat -> kept L k m (set_scoper c (AddVar (cScoper c) v)).
Proof.
  intros (H1 & H2 & H3 & H4) Hk. unfold kept, set_scoper, AddVar, levels in *. cbn [cScoper cModel].
  destruct (length (scopes (cScoper c)) =? 0)%nat; [auto|].
  destruct (slookup (svars (cScoper c)) v) eqn:E; [auto|]. cbn [svars scopes map fst snd].
  split; [constructor; [now apply slookup_none | exact H1]|]. split; [|auto].
  change (list_max (?x :: ?y)) with (Nat.max x (list_max y)). lia.
Qed.
Lemma kept_AddScope L k m c t : kept L k m c -> kept L (S k) m (set_scoper c (AddScope (cScoper c) t)).
Proof.
  intros (H1 & H2 & H3 & H4). unfold kept, set_scoper, AddScope, levels in *. cbn [cScoper cModel svars scopes].
  rewrite app_length. cbn [length]. repeat split; auto. lia.
Qed.
Lemma kept_SetScope L k m c i l : kept L k m c -> kept L k m (set_scoper c (snd (SetScope (cScoper c) i l))).
Proof.
  intros (H1 & H2 & H3 & H4). unfold kept, set_scoper, SetScope, levels in *. cbn [cScoper cModel].
  destruct (scopes (cScoper c)) as [|s0 r] eqn:E; cbn [snd svars scopes]; [now rewrite E|].
  split; [auto|]. split; [auto|]. split; [|auto]. rewrite app_length. cbn [length].
  rewrite (app_removelast_last (mkScope "" [] 0)) in H3 by discriminate. rewrite app_length in H3. exact H3.
Qed.
Lemma kept_PopScope L k m c : kept L (S k) m c ->
  fst (PopScope (cScoper c)) = None /\ kept L k m (set_scoper c (snd (PopScope (cScoper c)))).
Proof.
  intros (H1 & H2 & H3 & H4). unfold kept, set_scoper, PopScope, levels in *. cbn [cScoper cModel].
  destruct (scopes (cScoper c)) as [|s0 r] eqn:E; [discriminate|]. cbn [fst snd svars scopes].
  split; [auto|]. split; [now apply NoDup_filter_fst|]. split.
  - etransitivity; [apply list_max_filter | exact H2].
  - split; [|auto]. rewrite (app_removelast_last s0 (l := s0 :: r)) in H3 by discriminate.
    rewrite app_length in H3. cbn [length] in H3. lia.
Qed.
Lemma kept_vm L k m c vm : kept L k m c -> kept L k m (set_vm c vm).
Proof. intros H. exact H. Qed.
Lemma kept_SetScope_ok L k m c i l : kept L (S k) m c -> fst (SetScope (cScoper c) i l) = None.
Proof.
  intros (_ & _ & H & _). unfold SetScope. destruct (scopes (cScoper c)); [discriminate | reflexivity].
Qed.

Definition keeping {A} (L k : nat) (m : model) (f : M A) : Prop :=
  forall c, kept L k m c -> fst (f c) <> Hang -> kept L k m (snd (f c)).
Lemma keep_bind {A B} L k m (f : M A) (g : A -> M B) :
  keeping L k m f -> (forall a, keeping L k m (g a)) -> keeping L k m (bind f g).
Proof.
  intros Hf Hg c Hc. unfold bind. specialize (Hf c Hc). destruct (f c) as [[a| | |] c']; cbn [fst snd] in *.
  - apply Hg, Hf. discriminate.
  - intros _. apply Hf. discriminate.
  - intros _. apply Hf. discriminate.
  - congruence.
Qed.
Lemma keep_ret {A} L k m (a : A) : keeping L k m (ret a).
Proof. intros c Hc _. exact Hc. Qed.
Lemma keep_fail {A} L k m e : keeping L k m (@fail A e).
Proof. intros c Hc _. exact Hc. Qed.
Lemma keep_lift {A} L k m (r : res A) : keeping L k m (lift r).
Proof. intros c Hc _. exact Hc. Qed.
Lemma keep_wrap {A} L k m p (f : M A) : keeping L k m f -> keeping L k m (wrap p f).
Proof.
  intros Hf c Hc. unfold wrap. specialize (Hf c Hc). destruct (f c) as [[a| | |] c']; cbn [fst snd] in *; try exact Hf.
  intros _. apply Hf. discriminate.
Qed.
Lemma keep_Negate L k m f : keeping L k m (m_Negate f).
Proof. unfold m_Negate. repeat (apply keep_bind; [|intros ?]); try apply keep_ret; intros c Hc _; exact Hc. Qed.
Lemma keep_atom L k m a : keeping L k m (enc_atom a).
Proof.
  intros c Hc _. unfold enc_atom. destruct (atom_enc c a) as [[b|es]| | |]; try exact Hc.
  destruct (run_emits (cVM c) es). now apply kept_vm.
Qed.
Lemma keep_encodeI L k m v : keeping L k m (encodeI v).
Proof.
  unfold encodeI. apply keep_bind; [intros c Hc _; exact Hc|]. intros w c Hc _.
  destruct (CNFVarExists _ _); [exact Hc|]. destruct (run_emits _ _). now apply kept_vm.
Qed.
Lemma keep_scope {A} L k m t (f : M A) :
  (forall c, kept L (S k) m c -> fst (f c) <> Hang -> kept L k m (snd (f c))) ->
  keeping L k m (mdo _ <- m_AddScope t ;; f).
Proof. intros H c Hc. unfold bind, m_AddScope. apply H. now apply kept_AddScope. Qed.
Lemma keep_enc q : forall L k m, (k + qheight q <= L)%nat -> keeping L k m (enc q).
Proof.
  induction q as [|a|q IH|q1 IH1 q2 IH2|q1 IH1 q2 IH2|v q IH|b q IH]; intros L k m Hk; cbn [enc qheight] in *.
  - apply keep_lift.
  - apply keep_atom.
  - apply keep_wrap. destruct (is_nil q); [apply keep_fail|]. apply keep_bind; [apply IH; lia|]. intros f. apply keep_Negate.
  - apply keep_wrap. destruct (is_nil q1); [apply keep_fail|]. destruct (is_nil q2); [apply keep_fail|].
    apply keep_bind; [apply keep_wrap, IH1; lia|]. intros f1. apply keep_bind; [apply keep_wrap, IH2; lia|]. intros f2. apply keep_ret.
  - apply keep_wrap. destruct (is_nil q1); [apply keep_fail|]. destruct (is_nil q2); [apply keep_fail|].
    apply keep_bind; [apply keep_wrap, IH1; lia|]. intros f1. apply keep_bind; [apply keep_wrap, IH2; lia|]. intros f2.
    repeat (apply keep_bind; [apply keep_Negate|intros ?]). apply keep_Negate.
  - apply keep_wrap. destruct (is_nil q); [apply keep_fail|].
    apply keep_bind; [|intros _; apply keep_bind; [apply keep_encodeI|]; intros fi; apply keep_bind; [apply IH; lia|intros f; apply keep_ret]].
    intros c Hc _. apply kept_AddVar; [exact Hc | lia].
  - apply keep_wrap. destruct (is_nil q); [apply keep_fail|]. apply keep_scope. intros c1 H1.
    unfold defer_PopScope. set (r := _ c1). intros Hr.
    assert (H2 : fst r <> Hang -> kept L (S k) m (snd r)).
    { unfold r. apply keep_bind; [apply keep_lift| |exact H1]. intros it. generalize 0 as i. generalize TrueCNF as acc. revert it.
      generalize (forall_fuel (Nodes (cModel c1))) as fuel. induction fuel as [|fuel IHf]; intros it acc i; cbn [forall_loop]; [apply keep_lift|].
      apply keep_bind; [apply keep_lift|]. intros [more it']. destruct more; [|apply keep_ret].
      apply keep_bind.
      { intros c Hc _. unfold m_SetScope. pose proof (kept_SetScope L (S k) m c i (it_t it') Hc) as H. now destruct (SetScope _ _ _). }
      intros _. apply keep_bind; [apply IH; lia|]. intros f. apply IHf. }
    clearbody r. destruct r as [r c2]. cbn [fst snd] in *.
    destruct r as [f|e| |]; [specialize (H2 ltac:(discriminate))..|exfalso; now apply Hr];
      destruct (kept_PopScope _ _ _ _ H2) as (Ep & Hp); destruct (PopScope (cScoper c2)) as [pe s']; cbn [fst snd] in Ep, Hp; subst pe; exact Hp.
Qed.

(* ---- calls ---- *)

(* A call against the model: new cells may be left behind; an error may come
   with any formula. *)
Definition runs (g : heap) (p : res (list val) * heap) (r : res CNF * ctx) : Prop :=
  match r with
  | (Ok f, c) => exists k, p = (Ok [v_cnf f; VNil], v_ctx c :: g ++ k)
  | (Err e, c) => exists f k, p = (Ok [v_cnf f; VErr e []], v_ctx c :: g ++ k)
  | (Panic, _) => fst p = Panic
  | (Hang, _) => fst p = Hang
  end.
Lemma says_runs g p r : says g p r -> runs g p r.
Proof.
  destruct r as [[f|e| |] c]; cbn; auto.
  - intros ->. exists []. now rewrite app_nil_r.
  - intros ->. exists TrueCNF, []. now rewrite app_nil_r.
Qed.

Lemma type_atom a : exists t fs, v_atom a = VStc t fs /\ kind_of prog (dot t "Encoding") = Some false.
Proof. destruct a; eexists _, _; (split; [reflexivity | vm_compute; reflexivity]). Qed.
Lemma type_query q : q <> QNil -> exists t fs, v_query q = VStc t fs /\ kind_of prog (dot t "Encoding") = Some false.
Proof.
  destruct q; intros H; [congruence|apply type_atom|..]; eexists _, _; (split; [reflexivity | vm_compute; reflexivity]).
Qed.

Definition with_ {A B} (f : A -> B) (r : res A) : res B :=
  match r with Ok a => Ok (f a) | Err e => Err e | Panic => Panic | Hang => Hang end.
Lemma ev_Encoding n e q env d h :
  q <> QNil -> EV n e (mkMs env d h) = (Ok (v_query q), mkMs env d h) -> elookup "ctx" env = Some (VPtr 0) ->
  EV n (XMeth e "Encoding" [XVar "ctx"]) (mkMs env d h)
  = (with_ one (fst (go_encoding n q h)), mkMs env d (snd (go_encoding n q h))).
Proof.
  intros Hq He Hc. eapply ev_meth; [exact He | eapply xm_cons; [eapply ev_var; exact Hc | apply xm_nil]|].
  unfold go_encoding. destruct (type_query q Hq) as (t & fs & E & K). rewrite E. cbn [type_of].
  change (t ++ ".Encoding")%string with (dot t "Encoding").
  unfold x_method, method, own_method. rewrite K. unfold xbind, x_call. cbn [mHeap mEnv mDefers].
  destruct (gocall n (dot t "Encoding") (VStc t fs :: [VPtr 0]) h) as [[vs| | |] h']; reflexivity.
Qed.

Section Ends.
  Variable n : nat.
  Lemma fst_panic fn ks st : fst (fin n fn (plug n ks (Panic, st))) = Panic.
  Proof.
    revert st. induction ks as [|[r|] ks IH]; intros st; cbn [plug kstep fst snd]; [|apply IH..].
    cbn [fin]. now destruct (run_defers _ _ _ _ _ _ _).
  Qed.
  Lemma fst_hang fn ks st : fst (fin n fn (plug n ks (Hang, st))) = Hang.
  Proof. revert st. induction ks as [|[r|] ks IH]; intros st; cbn [plug kstep fst snd]; [reflexivity|apply IH..]. Qed.
  Lemma ex_assign2_hang l1 l2 e st st1 :
    EV n e st = (Hang, st1) -> EX n (SAssign [l1; l2] [e]) st = (Hang, st1).
  Proof. intros H. cbn [exec x_map]. unfold xbind. now rewrite H. Qed.
  Lemma plug_hang ks s r st st' :
    EX n s st = (Hang, st') -> plug n ks (run_block (EX n) None (s :: r) st) = plug n ks (Hang, st').
  Proof. intros H. cbn [run_block]. unfold xbind. now rewrite H. Qed.
  Lemma plug_defer ks b r env d h :
    plug n ks (run_block (EX n) None (SDefer b :: r) (mkMs env d h)) = plug n ks (run_block (EX n) None r (mkMs env (b :: d) h)).
  Proof. reflexivity. Qed.
  (* the end of a function with two named results and a deferred call *)
  Lemma fin_named2 fn x y ex ey v1 v2 env e1 e2 h b fl f e3 d' h' w1 w2 :
    fresults fn = [(x, ex); (y, ey)] -> fptr fn = false ->
    eupdate x v1 env = Some e1 -> eupdate y v2 e1 = Some e2 ->
    run_block (EX n) None b (push [] (mkMs e2 [b] h)) = (Ok fl, mkMs (f :: e3) d' h') ->
    elookup x e3 = Some w1 -> elookup y e3 = Some w2 ->
    fin n fn (plug n [] (Ok (FRet (Some [v1; v2])), mkMs env [b] h)) = (Ok [w1; w2], h').
  Proof.
    intros H1 H2 H3 H4 H5 H6 H7. cbn [plug fin]. unfold finish. rewrite H1, H2.
    cbn [set_all fst]. unfold xbind at 1 2 3 4. unfold x_set. cbn [mEnv mDefers mHeap]. rewrite H3. cbn [mEnv mDefers mHeap]. rewrite H4.
    unfold xret. unfold xbind. cbn [mDefers run_defers]. unfold xbind, x_scope. fold (push [] (mkMs e2 [b] h)). rewrite H5.
    cbn [mEnv mDefers mHeap tl]. unfold xret, get_all. cbn [x_map fst]. unfold xbind, x_get. cbn [mEnv]. rewrite H6. cbn [mEnv]. rewrite H7. reflexivity.
  Qed.
End Ends.

(* ---- the operators ---- *)

(* Fuel for the parts of a query: levels at most L, in the model m. *)
Definition base_fuel (L : nat) (m : model) : nat := L + Dim m + 3 * length (Nodes m) + 8.

Definition says_enc (q : query) : Prop :=
  forall L n s vm M g, kept L (length (scopes s)) M (mkCtx s vm M) -> (length (scopes s) + qheight q <= L)%nat ->
    (base_fuel L M + 2 * qheight q <= n)%nat ->
    runs g (go_encoding n q (hc s M g vm)) (enc q (mkCtx s vm M)).

Lemma atom_encoding a : says_enc (QAtom a).
Proof.
  intros L n s vm M g (_ & HL & _) _ Hn. apply says_runs. unfold base_fuel in Hn. cbn [qheight cScoper] in *. cbn [enc].
  unfold go_encoding. cbn [v_query].
  destruct a.
  - apply go_SubsVV; lia.
  - apply go_SubsVC; lia.
  - apply go_SubsCV; lia.
  - apply go_SubsCC; lia.
  - apply go_LelVV; lia.
  - apply go_LelVC; lia.
  - apply go_LelCV; lia.
  - apply go_LelCC; lia.
  - apply go_NodeV; lia.
  - apply go_NodeC; lia.
  - apply go_FullV; lia.
  - apply go_FullC; lia.
  - apply go_ConsVV; lia.
  - apply go_ConsVC; lia.
  - apply go_ConsCV; lia.
  - apply go_ConsCC; lia.
  - apply go_AllV; lia.
  - apply go_AllC; lia.
  - apply go_DfsV; lia.
  - apply go_DfsC; lia.
  - apply go_HeprVV; lia.
  - apply go_HeprVC; lia.
  - apply go_HeprCV; lia.
  - apply go_HeprCC; lia.
  - apply go_LehVVV; lia.
  - apply go_LehVVC; lia.
  - apply go_LehVCV; lia.
  - apply go_LehCVV; lia.
  - apply go_LehVCC; lia.
  - apply go_LehCVC; lia.
  - apply go_LehCCV; lia.
  - apply go_LehCCC; lia.
Qed.

Ltac func_named fn :=
  intros;
  match goal with
  | |- context [gocall ?n _ _ _] =>
      destruct n as [|n]; [exfalso; lia|];
      erewrite (call_intro_named n _ fn);
        [ | vm_compute; reflexivity
          | cbv beta iota delta [fbody fn]; reflexivity
          | cbv beta iota delta [fparams fn]; reflexivity
          | cbv beta iota delta [fresults fn]; evfs ];
      red_env
  end.

Lemma is_nil_ne q : is_nil q = false -> q <> QNil.
Proof. now destruct q. Qed.

(* x, y = e.m(ctx), where R is what the method makes of the heap *)
Section Sub.
  Variables (n : nat) (ks : list kont) (l1 l2 : lhs) (e : expr) (r : list stmt) (R : res (list val) * heap)
    (env : list GoLang.frame) (d : list (list stmt)) (h : heap).
  Hypothesis He : EV n e (mkMs env d h) = (with_ one (fst R), mkMs env d (snd R)).
  Notation ST := (SAssign [l1; l2] [e]).
  Lemma sub_ok a b h' st2 st3 :
    R = (Ok [a; b], h') ->
    x_assign (EV n) l1 a (mkMs env d h') = (Ok tt, st2) -> x_assign (EV n) l2 b st2 = (Ok tt, st3) ->
    plug n ks (run_block (EX n) None (ST :: r) (mkMs env d h)) = plug n ks (run_block (EX n) None r st3).
  Proof.
    intros E H1 H2. apply plug_step. eapply ex_assign2; [|exact H1|exact H2].
    rewrite He, E. reflexivity.
  Qed.
  Lemma sub_panic fn :
    fst R = Panic -> fst (fin n fn (plug n ks (run_block (EX n) None (ST :: r) (mkMs env d h)))) = Panic.
  Proof.
    intros E. erewrite plug_panic; [apply fst_panic|]. eapply ex_assign2_panic.
    rewrite He, E. reflexivity.
  Qed.
  Lemma sub_hang fn :
    fst R = Hang -> fst (fin n fn (plug n ks (run_block (EX n) None (ST :: r) (mkMs env d h)))) = Hang.
  Proof.
    intros E. erewrite plug_hang; [apply fst_hang|]. eapply ex_assign2_hang.
    rewrite He, E. reflexivity.
  Qed.
End Sub.
Lemma ev_build n e m t fs f env d h :
  EV n e (mkMs env d h) = (Ok (VStc t fs), mkMs env d h) -> elookup "ctx" env = Some (VPtr 0) ->
  dot t m = f -> kind_of prog f = Some false ->
  EV n (XMeth e m [XVar "ctx"]) (mkMs env d h)
  = (with_ one (fst (gocall n f [VStc t fs; VPtr 0] h)), mkMs env d (snd (gocall n f [VStc t fs; VPtr 0] h))).
Proof.
  intros He Hc <- K. eapply ev_meth; [exact He | eapply xm_cons; [eapply ev_var; exact Hc | apply xm_nil]|].
  unfold x_method, method, own_method. rewrite K. unfold xbind, x_call. cbn [mHeap mEnv mDefers].
  destruct (gocall n (dot t m) [VStc t fs; VPtr 0] h) as [[vs| | |] h']; reflexivity.
Qed.
Ltac callee :=
  first [ eapply ev_Encoding; [first [assumption | now apply is_nil_ne] | ev | look]
        | eapply ev_build; [ev | look | vm_compute; reflexivity | vm_compute; reflexivity] ].
(* The call as in IH : runs g R r, whose outcome r leaves K : kept ..; ends the
   branches that panic or hang, and takes the others to the next statement. *)
Ltac sub_call IH K M f :=
  let e := fresh "e" in let g' := fresh "k" in let Er := fresh "Er" in
  lazymatch type of IH with
  | runs ?g ?R ?r =>
      let s1 := fresh "s" in let vm1 := fresh "vm" in let M1 := fresh "M" in
      destruct r as [[f|e| |] [s1 vm1 M1]];
      [ specialize (K ltac:(discriminate)); destruct IH as (g' & Er);
        assert (M1 = M) by (apply K); subst M1;
        fold (hc s1 M (g ++ g') vm1) in Er;
        erewrite (sub_ok _ _ _ _ _ _ R); [|callee|exact Er|asg|asg]; clear Er
      | specialize (K ltac:(discriminate)); destruct IH as (f & g' & Er);
        assert (M1 = M) by (apply K); subst M1;
        fold (hc s1 M (g ++ g') vm1) in Er;
        erewrite (sub_ok _ _ _ _ _ _ R); [|callee|exact Er|asg|asg]; clear Er
      | apply (sub_panic _ _ _ _ _ _ R); [callee|exact IH]
      | apply (sub_hang _ _ _ _ _ _ R); [callee|exact IH] ]
  end.

Lemma go_Negate1 n h c k :
  (4 <= n)%nat ->
  gocall n "cnf.CNF.Negate" [v_cnf c; VLst [VInt k]] h = (Ok [v_cnf (Negate c (Some k))], h).
Proof. intros Hn. exact (go_Negate n h c (Some k) Hn). Qed.
Global Hint Resolve go_Negate1 : gocall.

Lemma go_Not_build q : says_enc q -> q <> QNil ->
  forall L n s vm M g, kept L (length (scopes s)) M (mkCtx s vm M) -> (length (scopes s) + qheight q <= L)%nat ->
    (base_fuel L M + 2 * qheight q + 1 <= n)%nat ->
    runs g (gocall n "logop.Not.buildEncoding" [v_query (QNot q); VPtr 0] (hc s M g vm))
      ((mdo f <- enc q ;; m_Negate f) (mkCtx s vm M)).
Proof.
  intros IH Hq L n s vm M g HK Hh Hn. cbn [v_query].
  assert (Hn1 : (2 <= n)%nat) by (unfold base_fuel in Hn; lia).
  func src_logop_Not_buildEncoding.
  specialize (IH L n s vm M g HK Hh ltac:(lia)).
  pose proof (keep_enc q L (length (scopes s)) M Hh _ HK) as K.
  assert (Hn2 : (7 <= n)%nat) by (unfold base_fuel in Hn; lia). unfold bind at 1. sub_call IH K M f.
  - stp. stp. stp. exists k. reflexivity.
  - sts. eexists _, k. reflexivity.
Qed.

Lemma plug_start n p y : plug n [] p = y -> p = y.
Proof. intros H. exact H. Qed.
(* The test for a missing operand. *)
Ltac nil_test q :=
  lazymatch goal with |- context [run_block _ None (if ?b then _ else _) _] =>
    replace b with (is_nil q) by (destruct (is_nil q) eqn:?; [now destruct q | now destruct q as [|[]| | | | |]]) end.

(* The deferred wrapping of the error, at the end. *)
Ltac fin2 :=
  sts; erewrite fin_named2;
  [ | reflexivity | reflexivity | reflexivity | reflexivity
    | red_env; lazymatch goal with |- run_block (EX ?n) _ _ _ = _ => apply (plug_start n) end;
      sts; reflexivity
    | look | look].

Lemma go_Not q : (q <> QNil -> says_enc q) -> says_enc (QNot q).
Proof.
  intros IH L n s vm M g HK Hh Hn. unfold go_encoding. cbn [v_query type_of enc qheight] in *.
  change (_ ++ ".Encoding")%string with "logop.Not.Encoding".
  assert (Hn2 : (8 <= n)%nat) by (unfold base_fuel in Hn; lia).
  func_named src_logop_Not_Encoding. rewrite plug_defer.
  st1. nil_test q. destruct (is_nil q) eqn:Eq; cbv iota.
  - fin2. rewrite ?sapp_nil_r. eexists _, []. rewrite (app_nil_r g). reflexivity.
  - stp. stp. specialize (IH (is_nil_ne _ Eq)).
    pose proof (go_Not_build q IH (is_nil_ne _ Eq) L n s vm M g HK ltac:(lia) ltac:(lia)) as B. cbn [v_query] in B.
    assert (K : keeping L (length (scopes s)) M (mdo f <- enc q ;; m_Negate f)) by (apply keep_bind; [apply keep_enc; lia | intros; apply keep_Negate]).
    specialize (K _ HK). unfold wrap.
    sub_call B K M f.
    + fin2. now exists k.
    + fin2. rewrite ?sapp_nil_r. now eexists _, k.
Qed.

Lemma go_And_build q1 q2 : says_enc q1 -> says_enc q2 -> q1 <> QNil -> q2 <> QNil ->
  forall L n s vm M g, kept L (length (scopes s)) M (mkCtx s vm M) ->
    (length (scopes s) + Nat.max (qheight q1) (qheight q2) <= L)%nat ->
    (base_fuel L M + 2 * Nat.max (qheight q1) (qheight q2) + 1 <= n)%nat ->
    runs g (gocall n "logop.And.buildEncoding" [v_query (QAnd q1 q2); VPtr 0] (hc s M g vm))
      ((mdo f1 <- wrap "Q1" (enc q1) ;; mdo f2 <- wrap "Q2" (enc q2) ;; ret (Conjunction f1 f2)) (mkCtx s vm M)).
Proof.
  intros IH1 IH2 Hq1 Hq2 L n s vm M g HK Hh Hn. cbn [v_query].
  assert (Hn1 : (8 <= n)%nat) by (unfold base_fuel in Hn; lia).
  func src_logop_And_buildEncoding.
  specialize (IH1 L n s vm M g HK ltac:(lia) ltac:(lia)).
  pose proof (keep_enc q1 L (length (scopes s)) M ltac:(lia) _ HK) as K.
  unfold bind at 1, wrap at 1. sub_call IH1 K M f1.
  2: { sts. eexists _, k. rewrite ?sapp_nil_r. reflexivity. }
  stp. cbn [snd] in K. assert (El : length (scopes s0) = length (scopes s)) by apply K. rewrite <- El in *.
  specialize (IH2 L n s0 vm0 M (g ++ k) K ltac:(lia) ltac:(lia)).
  pose proof (keep_enc q2 L (length (scopes s0)) M ltac:(lia) _ K) as K2.
  unfold bind at 1, wrap at 1. sub_call IH2 K2 M f2.
  2: { sts. eexists _, (k ++ k0). rewrite ?sapp_nil_r, app_assoc. reflexivity. }
  sts. exists (k ++ k0). rewrite app_assoc. reflexivity.
Qed.

Lemma go_And q1 q2 : (q1 <> QNil -> says_enc q1) -> (q2 <> QNil -> says_enc q2) -> says_enc (QAnd q1 q2).
Proof.
  intros IH1 IH2 L n s vm M g HK Hh Hn. unfold go_encoding. cbn [v_query type_of enc qheight] in *.
  change (_ ++ ".Encoding")%string with "logop.And.Encoding".
  assert (Hn2 : (8 <= n)%nat) by (unfold base_fuel in Hn; lia).
  func_named src_logop_And_Encoding. rewrite plug_defer.
  st1. nil_test q1. destruct (is_nil q1) eqn:Eq1; cbv iota.
  { fin2. rewrite ?sapp_nil_r. eexists _, []. rewrite (app_nil_r g). reflexivity. }
  stp. st1. nil_test q2. destruct (is_nil q2) eqn:Eq2; cbv iota.
  { fin2. rewrite ?sapp_nil_r. eexists _, []. rewrite (app_nil_r g). reflexivity. }
  stp. stp. specialize (IH1 (is_nil_ne _ Eq1)). specialize (IH2 (is_nil_ne _ Eq2)).
  pose proof (go_And_build q1 q2 IH1 IH2 (is_nil_ne _ Eq1) (is_nil_ne _ Eq2) L n s vm M g HK ltac:(lia) ltac:(lia)) as B.
  cbn [v_query] in B.
  match type of B with runs _ _ (?m _) => assert (K : keeping L (length (scopes s)) M m) end.
  { repeat (apply keep_bind; [apply keep_wrap, keep_enc; lia|intros ?]). apply keep_ret. }
  specialize (K _ HK). unfold wrap at 1.
  sub_call B K M f.
  - fin2. now exists k.
  - fin2. rewrite ?sapp_nil_r. now eexists _, k.
Qed.

Lemma go_Or_build q1 q2 : says_enc q1 -> says_enc q2 -> q1 <> QNil -> q2 <> QNil ->
  forall L n s vm M g, kept L (length (scopes s)) M (mkCtx s vm M) ->
    (length (scopes s) + Nat.max (qheight q1) (qheight q2) <= L)%nat ->
    (base_fuel L M + 2 * Nat.max (qheight q1) (qheight q2) + 1 <= n)%nat ->
    runs g (gocall n "logop.Or.buildEncoding" [v_query (QOr q1 q2); VPtr 0] (hc s M g vm))
      ((mdo f1 <- wrap "Q1" (enc q1) ;; mdo f2 <- wrap "Q2" (enc q2) ;;
        mdo g1 <- m_Negate f1 ;; mdo g2 <- m_Negate f2 ;; m_Negate (Conjunction g1 g2)) (mkCtx s vm M)).
Proof.
  intros IH1 IH2 Hq1 Hq2 L n s vm M g HK Hh Hn. cbn [v_query].
  assert (Hn1 : (8 <= n)%nat) by (unfold base_fuel in Hn; lia).
  func src_logop_Or_buildEncoding.
  specialize (IH1 L n s vm M g HK ltac:(lia) ltac:(lia)).
  pose proof (keep_enc q1 L (length (scopes s)) M ltac:(lia) _ HK) as K.
  unfold bind at 1, wrap at 1. sub_call IH1 K M f1.
  2: { sts. eexists _, k. rewrite ?sapp_nil_r. reflexivity. }
  stp. cbn [snd] in K. assert (El : length (scopes s0) = length (scopes s)) by apply K. rewrite <- El in *.
  specialize (IH2 L n s0 vm0 M (g ++ k) K ltac:(lia) ltac:(lia)).
  pose proof (keep_enc q2 L (length (scopes s0)) M ltac:(lia) _ K) as K2.
  unfold bind at 1, wrap at 1. sub_call IH2 K2 M f2.
  2: { sts. eexists _, (k ++ k0). rewrite ?sapp_nil_r, app_assoc. reflexivity. }
  stp. stp. stp. stp. stp. stp. stp. stp. stp. stp. exists (k ++ k0). rewrite app_assoc. reflexivity.
Qed.

Lemma go_Or q1 q2 : (q1 <> QNil -> says_enc q1) -> (q2 <> QNil -> says_enc q2) -> says_enc (QOr q1 q2).
Proof.
  intros IH1 IH2 L n s vm M g HK Hh Hn. unfold go_encoding. cbn [v_query type_of enc qheight] in *.
  change (_ ++ ".Encoding")%string with "logop.Or.Encoding".
  assert (Hn2 : (8 <= n)%nat) by (unfold base_fuel in Hn; lia).
  func_named src_logop_Or_Encoding. rewrite plug_defer.
  st1. nil_test q1. destruct (is_nil q1) eqn:Eq1; cbv iota.
  { fin2. rewrite ?sapp_nil_r. eexists _, []. rewrite (app_nil_r g). reflexivity. }
  stp. st1. nil_test q2. destruct (is_nil q2) eqn:Eq2; cbv iota.
  { fin2. rewrite ?sapp_nil_r. eexists _, []. rewrite (app_nil_r g). reflexivity. }
  stp. stp. specialize (IH1 (is_nil_ne _ Eq1)). specialize (IH2 (is_nil_ne _ Eq2)).
  pose proof (go_Or_build q1 q2 IH1 IH2 (is_nil_ne _ Eq1) (is_nil_ne _ Eq2) L n s vm M g HK ltac:(lia) ltac:(lia)) as B.
  cbn [v_query] in B.
  match type of B with runs _ _ (?m _) => assert (K : keeping L (length (scopes s)) M m) end.
  { repeat (apply keep_bind; [apply keep_wrap, keep_enc; lia|intros ?]). repeat (apply keep_bind; [apply keep_Negate|intros ?]). apply keep_Negate. }
  specialize (K _ HK). unfold wrap at 1.
  sub_call B K M f.
  - fin2. now exists k.
  - fin2. rewrite ?sapp_nil_r. now eexists _, k.
Qed.

(* ---- WithVar ---- *)
Section WithVar.
  Variables (s : scoper) (M : model) (g : heap).
  Notation d := (Z.of_nat (Dim M)).
  Notation HL := (fun p : list clause * varman => hc s M g (snd p)).
  Notation HN := (fun p : CNF * varman => hc s M g (snd p)).
  Notation CL x := (fun p : list clause * varman => [(x%string, v_clauses (fst p))]).
  Notation NC x := (fun p : CNF * varman => [(x%string, v_cnf (fst p))]).
  Lemma go_encodeI_panic n vm v q :
    (levels s + 4 <= n)%nat -> (4 <= n)%nat -> ScopeVar s v = Panic ->
    fst (gocall n "logop.WithVar.encodeI" [v_query (QWith v q); VPtr 0] (hc s M g vm)) = Panic.
  Proof.
    intros Hn1 Hn2 E0. cbn [v_query]. func src_logop_WithVar_encodeI. stp.
    scopevar v w. congruence.
  Qed.
  Lemma go_encodeI n vm v w q :
    (levels s + 4 <= n)%nat -> (Dim M + 4 <= n)%nat -> ScopeVar s v = Ok w ->
    let X := if CNFVarExists vm (w, 0, BOT) then (TrueCNF, vm) else run_emits vm (withvar_emits d w) in
    gocall n "logop.WithVar.encodeI" [v_query (QWith v q); VPtr 0] (hc s M g vm) = (Ok [v_cnf (fst X)], hc s M g (snd X)).
  Proof.
    intros Hn1 Hn2 E X. cbn [v_query]. func src_logop_WithVar_encodeI. stp. stp. st1. subst X.
    unfold BOT. destruct (CNFVarExists vm (w, 0, 0)); cbv iota; [sts; reflexivity|].
    stp. stp.
    for_new "i" (CL "reqAllFeats") HL (fun i => addp [[Lp w i ZERO; Lp w i ONE; Lp w i BOT]]) from (@nil clause, vm) to d.
    2:{ sts. endbody. }
    rewrite addp_map, addp_start. stp.
    for_new "i" (NC "ncnf") HN (fun i => emitp (ECons [[Ln w i ZERO; Ln w i ONE]; [Ln w i ZERO; Ln w i BOT];
                          [Ln w i ONE; Ln w i BOT]]))
       from (emitp (ECons (map (fun i => [Lp w i ZERO; Lp w i ONE; Lp w i BOT]) (zrange 0 d))) (TrueCNF, vm)) to d.
    2:{ sts. endbody. }
    sts. rewrite emit_map. unfold withvar_emits. rewrite <- emitsp_start. reflexivity.
  Qed.
End WithVar.

Lemma go_With_build v q : says_enc q -> q <> QNil ->
  forall L n s vm M g, kept L (length (scopes s)) M (mkCtx s vm M) -> (length (scopes s) + qheight q <= L)%nat ->
    (base_fuel L M + 2 * qheight q + 1 <= n)%nat ->
    runs g (gocall n "logop.WithVar.buildEncoding" [v_query (QWith v q); VPtr 0] (hc s M g vm))
      ((mdo fi <- encodeI v ;; mdo f <- enc q ;; ret (Conjunction fi f)) (mkCtx s vm M)).
Proof.
  intros IH Hq L n s vm M g HK Hh Hn. cbn [v_query].
  assert (Hn1 : (8 <= n)%nat) by (unfold base_fuel in Hn; lia).
  assert (Hl : (levels s <= L)%nat) by apply HK.
  func src_logop_WithVar_buildEncoding.
  assert (Hn2 : (levels s + 4 <= n)%nat /\ (Dim M + 4 <= n)%nat /\ (8 <= S n)%nat) by (unfold base_fuel in Hn; lia).
  destruct Hn2 as (Hn2 & Hn3 & _).
  destruct (ScopeVar_cases s v) as [(w & E)|E].
  - pose proof (go_encodeI s M g n vm v w q Hn2 Hn3 E) as X. cbv zeta in X. cbn [v_query] in X.
    stp. clear X. unfold bind at 1.
    assert (X : exists fi vm1, encodeI v (mkCtx s vm M) = (Ok fi, mkCtx s vm1 M)
       /\ fi = fst (if CNFVarExists vm (w, 0, BOT) then (TrueCNF, vm) else run_emits vm (withvar_emits (Z.of_nat (Dim M)) w))
       /\ vm1 = snd (if CNFVarExists vm (w, 0, BOT) then (TrueCNF, vm) else run_emits vm (withvar_emits (Z.of_nat (Dim M)) w))).
    { unfold encodeI, bind, m_ScopeVar, set_vm. cbn [cScoper cVM cModel]. rewrite E.
      destruct (CNFVarExists vm (w, 0, BOT)); [now eexists _, _|]. destruct (run_emits _ _). now eexists _, _. }
    destruct X as (fi & vm1 & -> & <- & <-).
    assert (HK' : kept L (length (scopes s)) M (mkCtx s vm1 M)) by exact HK.
    specialize (IH L n s vm1 M g HK' ltac:(lia) ltac:(lia)).
    pose proof (keep_enc q L (length (scopes s)) M ltac:(lia) _ HK') as K.
    unfold bind. sub_call IH K M f.
    + sts. now exists k.
    + sts. now eexists _, k.
  - pose proof (go_encodeI_panic s M g n vm v q Hn2 ltac:(lia) E) as X. cbn [v_query] in X.
    unfold encodeI, bind, m_ScopeVar. cbn [cScoper]. rewrite E.
    erewrite plug_panic; [apply fst_panic|]. eapply ex_assign_panic.
    rewrite (ev_build _ _ _ "logop.WithVar" [("I", VStr v); ("Q", v_query q)] "logop.WithVar.encodeI"); [|ev|look|reflexivity|vm_compute; reflexivity]. rewrite X. reflexivity.
Qed.

Lemma go_With v q : (q <> QNil -> says_enc q) -> says_enc (QWith v q).
Proof.
  intros IH L n s vm M g HK Hh Hn. unfold go_encoding. cbn [v_query type_of enc qheight] in *.
  change (_ ++ ".Encoding")%string with "logop.WithVar.Encoding".
  assert (Hn2 : (8 <= n)%nat) by (unfold base_fuel in Hn; lia).
  func_named src_logop_WithVar_Encoding. rewrite plug_defer.
  st1. nil_test q. destruct (is_nil q) eqn:Eq; cbv iota.
  { fin2. rewrite ?sapp_nil_r. eexists _, []. rewrite (app_nil_r g). reflexivity. }
  stp. stp. stp. specialize (IH (is_nil_ne _ Eq)).
  assert (HK' : kept L (length (scopes (AddVar s v))) M (mkCtx (AddVar s v) vm M)).
  { pose proof (kept_AddVar _ _ _ _ v HK ltac:(lia)) as X. unfold set_scoper in X. cbn [cScoper cVM cModel] in X.
    assert (El : length (scopes (AddVar s v)) = length (scopes s)) by apply X. now rewrite El. }
  assert (El : length (scopes (AddVar s v)) = length (scopes s)).
  { unfold AddVar. destruct (_ =? 0)%nat; [reflexivity|]. now destruct (slookup _ _). }
  pose proof (go_With_build v q IH (is_nil_ne _ Eq) L n (AddVar s v) vm M g HK' ltac:(lia) ltac:(lia)) as B.
  cbn [v_query] in B.
  match type of B with runs _ _ (?m _) => assert (K : keeping L (length (scopes (AddVar s v))) M m) end.
  { apply keep_bind; [apply keep_encodeI|intros ?]. apply keep_bind; [apply keep_enc; lia | intros ?; apply keep_ret]. }
  specialize (K _ HK'). unfold wrap, bind at 1. unfold m_AddVar, set_scoper. cbn [cScoper cVM cModel].
  sub_call B K M f.
  - fin2. now exists k.
  - fin2. rewrite ?sapp_nil_r. now eexists _, k.
Qed.

(* ---- ForAllGuarded ---- *)
Lemma Next_nodes : forall i more i', Next i = Ok (more, i') -> it_nodes i' = it_nodes i.
Proof.
  intros i. unfold Next. generalize (next_fuel (it_nodes i)) as k. intros k. revert i.
  induction k as [|k IH]; intros i more i' H; cbn [it_next] in H; [discriminate|].
  destruct (it_step i) as [[j|[m j]]| | |] eqn:E; cbn [rbind] in H; try discriminate.
  - rewrite (IH _ _ _ H). apply (it_step_nodes _ _ E).
  - injection H as <- <-. apply (it_step_nodes _ _ E).
Qed.

Section Deref.
  Variables (n : nat) (s : scoper) (M : model) (g : heap) (vm : varman) (k : heap).
  Lemma ev_deref_hc e x env d :
    EV n e (mkMs env d (hc s M (g ++ x :: k) vm)) = (Ok (VPtr (S (length g))), mkMs env d (hc s M (g ++ x :: k) vm)) ->
    EV n (XDeref e) (mkMs env d (hc s M (g ++ x :: k) vm)) = (Ok x, mkMs env d (hc s M (g ++ x :: k) vm)).
  Proof. intros H. exact (ev_deref n e _ (v_ctx (mkCtx s vm M) :: g) x k env d H). Qed.
  Lemma plug_fst_panic ks st : fst (plug n ks (Panic, st)) = Panic.
  Proof. revert st. induction ks as [|[r|] ks IH]; intros st; cbn [plug kstep fst snd]; [reflexivity|apply IH..]. Qed.
  Lemma plug_fst_hang ks st : fst (plug n ks (Hang, st)) = Hang.
  Proof. revert st. induction ks as [|[r|] ks IH]; intros st; cbn [plug kstep fst snd]; [reflexivity|apply IH..]. Qed.
End Deref.
Lemma errorf_all e : prim "fmt.Errorf" [VStr "ForAllGuarded: %w"; VErr e []] = Ok (VErr ("ForAllGuarded" ++ ": " ++ (e ++ ""))%string []).
Proof. vm_compute. reflexivity. Qed.
Ltac ev_hook e ::=
  lazymatch e with
  | XStc "cnf.CNF" [("tv"%string, XInt 0); ("sClauses"%string, XLst []); ("cClauses"%string, XLst [])] => apply ev_true
  | XDeref _ => eapply ev_deref_hc; ev
  | XPrim _ [XStr "ForAllGuarded: %w"; _] => eapply ev_prim; [evs | apply errorf_all]
  end.

(* The state of the loop: its frame, that of the function, and the heap with the
   cell of the iterator. *)
Section Loop.
  Variables (b : QConst) (q : query) (L n k0 : nat) (M : model) (g : heap) (D : list (list stmt)).
  Hypothesis (Hq : q <> QNil) (IH : says_enc q).
  Hypothesis (Hh : (S k0 + qheight q <= L)%nat) (Hn : (base_fuel L M + 2 * qheight q <= n)%nat).
  Definition all_env (i : Z) (acc ic : CNF) (er : val) (it : iter) : GoLang.frame :=
    [("i"%string, VInt i); ("icnf"%string, v_cnf ic); ("iter"%string, v_iter (S (length g)) it);
     ("cv"%string, VPtr (S (length g)));
     ("f"%string, VStc "logop.ForAllGuarded" [("I", v_const b); ("Q", v_query q)]);
     ("ctx"%string, VPtr 0); ("ncnf"%string, v_cnf acc); ("err"%string, er)].
  Definition all_st (i : Z) (acc ic : CNF) (er : val) (it : iter) (s : scoper) (vm : varman) (k : heap) : ms :=
    mkMs [[]; all_env i acc ic er it] D (hc s M (g ++ v_feats (it_t it) :: k) vm).
  Definition all_cond : X bool := xdo v <- EV n (XMeth (XVar "iter") "Next" []) ;; xlift (v_bool v).

  Lemma all_Next i acc ic er it s vm k more it' d :
    (3 * length (it_nodes it) + 5 <= n)%nat -> it_ok d it -> Next it = Ok (more, it') ->
    all_cond (all_st i acc ic er it s vm k) = (Ok more, all_st i acc ic er it' s vm k).
  Proof.
    intros H1 H2 H3. unfold all_cond, all_st, all_env, xbind. erewrite ev_meth; [|ev|apply xm_nil|].
    2:{ eapply xm_ptr; [reflexivity|cbv; reflexivity|vm_compute; reflexivity| |wb|cbv beta iota delta [one]; reflexivity].
        exact (go_Next n (v_ctx (mkCtx s vm M) :: g) k d it more it' H1 H2 H3). }
    reflexivity.
  Qed.
  Definition all_body : list stmt :=
    [SIf [SAssign [LVar "err"] [XMeth (XVar "ctx") "SetScope" [XVar "i"; XDeref (XVar "cv")]]] (XBin ONe (XVar "err") XNil)
       [SReturn [XStc "cnf.CNF" [("tv", XInt 0); ("sClauses", XLst []); ("cClauses", XLst [])]; XVar "err"]] [];
     SAssign [LVar "icnf"; LVar "err"] [XMeth (XSel (XVar "f") "Q") "Encoding" [XVar "ctx"]];
     SIf [] (XBin ONe (XVar "err") XNil)
       [SReturn [XStc "cnf.CNF" [("tv", XInt 0); ("sClauses", XLst []); ("cClauses", XLst [])]; XVar "err"]] [];
     SAssign [LVar "ncnf"] [XMeth (XVar "ncnf") "Conjunction" [XVar "icnf"]];
     SAssign [LVar "i"] [XBin OAdd (XVar "i") (XInt 1)]].
  Notation BODY st := (plug n [KPop] (run_block (EX n) None all_body (push [] st))).

  (* what a turn leaves *)
  Definition turned (i : Z) (acc : CNF) (it : iter) (k : heap) (r : res CNF * ctx) (p : res flow * ms) : Prop :=
    match r with
    | (Ok f, c) => exists k', p = (Ok FNext, all_st (i + 1) (Conjunction acc f) f VNil it (cScoper c) (cVM c) (k ++ k'))
    | (Err e, c) => exists f k', p = (Ok (FRet (Some [v_cnf TrueCNF; VErr e []])), all_st i acc f (VErr e []) it (cScoper c) (cVM c) (k ++ k'))
    | (Panic, _) => fst p = Panic
    | (Hang, _) => fst p = Hang
    end.
  Lemma all_turn i acc ic er it s vm k :
    kept L (S k0) M (mkCtx s vm M) ->
    turned i acc it k (enc q (mkCtx (snd (SetScope s i (it_t it))) vm M)) (BODY (all_st i acc ic er it s vm k)).
  Proof.
    intros HK. unfold all_st, all_env, all_body. red_env.
    assert (Hn1 : (8 <= n)%nat) by (unfold base_fuel in Hn; lia).
    pose proof (kept_SetScope L (S k0) M _ i (it_t it) HK) as HK2. pose proof (kept_SetScope_ok L k0 M _ i (it_t it) HK) as Es.
    unfold set_scoper in HK2. cbn [cScoper cVM cModel] in HK2, Es.
    st1. destruct (SetScope s i (it_t it)) as [e s2]. cbn [fst snd] in Es, HK2 |- *. subst e. cbn [v_err]. cbv iota. stp.
    assert (El : length (scopes s2) = S k0) by apply HK2. rewrite <- El in HK2, Hh.
    pose proof (IH L n s2 vm M (g ++ v_feats (it_t it) :: k) HK2 Hh Hn) as I.
    pose proof (keep_enc q L _ M Hh _ HK2) as K.
    destruct (enc q (mkCtx s2 vm M)) as [[f|e| |] [s3 vm3 M3]].
    - specialize (K ltac:(discriminate)). destruct I as (k' & Er). assert (M3 = M) by apply K. subst M3.
      rewrite <- app_assoc in Er. cbn [app] in Er. fold (hc s3 M (g ++ v_feats (it_t it) :: k ++ k') vm3) in Er.
      erewrite (sub_ok _ _ _ _ _ _ (go_encoding n q (hc s2 M (g ++ v_feats (it_t it) :: k) vm))); [|callee|exact Er|asg|asg]. clear Er. stp. stp. sts. exists k'. reflexivity.
    - specialize (K ltac:(discriminate)). destruct I as (f & k' & Er). assert (M3 = M) by apply K. subst M3.
      rewrite <- app_assoc in Er. cbn [app] in Er. fold (hc s3 M (g ++ v_feats (it_t it) :: k ++ k') vm3) in Er.
      erewrite (sub_ok _ _ _ _ _ _ (go_encoding n q (hc s2 M (g ++ v_feats (it_t it) :: k) vm))); [|callee|exact Er|asg|asg]. clear Er. sts. exists f, k'. reflexivity.
    - erewrite plug_panic; [apply plug_fst_panic|]. eapply ex_assign2_panic.
      erewrite ev_Encoding; [|exact Hq|ev|look]. red_env. cbn [runs] in I. rewrite I. reflexivity.
    - erewrite plug_hang; [apply plug_fst_hang|]. eapply ex_assign2_hang.
      erewrite ev_Encoding; [|exact Hq|ev|look]. red_env. cbn [runs] in I. rewrite I. reflexivity.
  Qed.
  (* and what all turns leave *)
  Definition looped (r : res CNF * ctx) (p : res flow * ms) : Prop :=
    match r with
    | (Ok f, c) => kept L (S k0) M c /\ exists i ic it k, p = (Ok FNext, all_st i f ic VNil it (cScoper c) (cVM c) k)
    | (Err e, c) => kept L (S k0) M c /\ exists i acc f it k, p = (Ok (FRet (Some [v_cnf TrueCNF; VErr e []])), all_st i acc f (VErr e []) it (cScoper c) (cVM c) k)
    | (Panic, _) => fst p = Panic
    | (Hang, _) => fst p = Hang
    end.
  Lemma all_loop d : forall fuel mf i acc ic it s vm k,
    it_ok d it -> it_nodes it = Nodes M -> (unvisited (it_walk it) < fuel)%nat -> (unvisited (it_walk it) < mf)%nat ->
    kept L (S k0) M (mkCtx s vm M) ->
    looped (forall_loop mf (enc q) it i acc (mkCtx s vm M))
      (loop all_cond (fun s => BODY s) (run_block (EX n) None []) fuel (all_st i acc ic VNil it s vm k)).
  Proof.
    induction fuel as [|fuel IHf]; intros mf i acc ic it s vm k Hi Hd H1 H2 HK; [lia|].
    destruct mf as [|mf]; [lia|]. cbn [loop forall_loop].
    destruct (Next_total d it Hi) as (more & it' & E & Hi' & Hu).
    unfold xbind at 1. erewrite all_Next; [|rewrite Hd; unfold base_fuel in Hn; lia|exact Hi|exact E].
    unfold bind at 1, lift. rewrite E. destruct more.
    2:{ split; [exact HK|]. now exists i, ic, it', k. }
    pose proof (all_turn i acc ic VNil it' s vm k HK) as T.
    pose proof (kept_SetScope L (S k0) M _ i (it_t it') HK) as HK2. pose proof (kept_SetScope_ok L k0 M _ i (it_t it') HK) as Es.
    unfold set_scoper in HK2. cbn [cScoper cVM cModel] in HK2, Es.
    unfold bind at 1, m_SetScope, set_scoper. cbn [cScoper cVM cModel]. destruct (SetScope s i (it_t it')) as [e s2].
    cbn [fst snd] in *. subst e. unfold bind at 1.
    pose proof (keep_enc q L (S k0) M Hh _ HK2) as K.
    unfold xbind at 1.
    destruct (enc q (mkCtx s2 vm M)) as [[f|e| |] [s3 vm3 M3]]; cbn [turned] in T.
    - specialize (K ltac:(discriminate)). destruct T as (k' & ->). unfold xbind at 1. cbn [run_block].
      unfold xret at 1. assert (M3 = M) by apply K. subst M3. cbn [cScoper cVM snd] in *. apply IHf; auto; [|lia|lia].
      now rewrite (Next_nodes _ _ _ E).
    - specialize (K ltac:(discriminate)). destruct T as (f & k' & ->). split; [exact K|]. now eexists _, _, _, _, _.
    - destruct (BODY _) as [r st]. cbn [fst] in T. subst r. reflexivity.
    - destruct (BODY _) as [r st]. cbn [fst] in T. subst r. reflexivity.
  Qed.
End Loop.

Lemma newIter_nodes d nodes it : newNodeAsValuesIter d nodes = Ok it -> it_nodes it = nodes.
Proof.
  unfold newNodeAsValuesIter. destruct nodes; [discriminate|]. destruct (validateNodes _ _ _); [discriminate|].
  now intros [= <-].
Qed.
(* The deferred PopScope, at the end. *)
Ltac fin_pop HP :=
  erewrite fin_named2;
  [ | reflexivity | reflexivity | reflexivity | reflexivity
    | red_env; lazymatch goal with |- run_block (EX ?n) _ _ _ = _ => apply (plug_start n) end;
      st1; rewrite HP; cbn [v_err fst snd]; cbv iota; sts; reflexivity
    | look | look].

Lemma go_All_build b q : says_enc q -> q <> QNil ->
  forall L n s vm M g, kept L (length (scopes s)) M (mkCtx s vm M) -> (length (scopes s) + S (qheight q) <= L)%nat ->
    (base_fuel L M + 2 * qheight q + 1 <= n)%nat ->
    runs g (gocall n "logop.ForAllGuarded.buildEncoding" [v_query (QAll b q); VPtr 0] (hc s M g vm))
      ((mdo _ <- m_AddScope (cID b) ;;
        defer_PopScope
          (fun cx =>
             (mdo it <- lift (newNodeAsValuesIter (Dim (cModel cx)) (Nodes (cModel cx))) ;;
              forall_loop (forall_fuel (Nodes (cModel cx))) (enc q) it 0 TrueCNF) cx)) (mkCtx s vm M)).
Proof.
  intros IH Hq L n s vm M g HK Hh Hn. cbn [v_query].
  assert (Hn1 : (8 <= n)%nat) by (unfold base_fuel in Hn; lia).
  func_named src_logop_ForAllGuarded_buildEncoding. stp. stp. stp. stp. rewrite plug_defer. stp.
  unfold bind at 1, m_AddScope, set_scoper. cbn [cScoper cVM cModel]. unfold defer_PopScope. cbn [cScoper cVM cModel].
  pose proof (kept_AddScope _ _ _ _ (cID b) HK) as HK1. unfold set_scoper in HK1. cbn [cScoper cVM cModel] in HK1.
  set (s1 := AddScope s (cID b)) in *. clearbody s1.
  pose proof (go_newIter n (hc s1 M g vm) (Dim M) (Nodes M) ltac:(lia)) as X. change (length (hc s1 M g vm)) with (S (length g)) in X.
  assert (HN : NoDup (map fst (svars s1))) by apply HK1.
  unfold bind at 1, lift at 1.
  destruct (iter_total (Dim M) (Nodes M)) as [(e & E)|(it & E & Hok & Hu)]; rewrite E in X |- *.
  - destruct (kept_PopScope _ _ _ _ HK1) as (HP & HK2). cbn [cScoper] in HP. stp.
    cbn [cScoper]. destruct (PopScope s1) as [pe s2] eqn:Ep. cbn [fst] in HP. subst pe.
    do 5 st1. fin_pop Ep. eexists _, []. rewrite (app_nil_r g). reflexivity.
  - stp. stp. clear X.
    assert (Hf : (S (length (scopes s)) + qheight q <= L)%nat /\ (base_fuel L M + 2 * qheight q <= n)%nat
      /\ (length (Nodes M) < n)%nat) by (unfold base_fuel in Hn |- *; lia).
    destruct Hf as (Hf1 & Hf2 & Hf3).
    lazymatch goal with |- context [mkMs _ [?d] (hc s1 M g vm ++ _)] =>
      pose proof (all_loop b q L n (length (scopes s)) M g [d] Hq IH Hf1 Hf2 (Dim M) n (forall_fuel (Nodes M)) 0 TrueCNF TrueCNF it s1 vm []
        Hok (newIter_nodes _ _ _ E) ltac:(rewrite Hu; exact Hf3) ltac:(rewrite Hu; unfold forall_fuel; lia) HK1) as W end.
    erewrite plug_exec; [|eapply ex_for_gen; apply blk_nil].
    match type of W with _ ?p =>
      match goal with |- context [plug n [_] (let (r, s') := ?p' in _)] => change p' with p end; destruct p as [fl st'] end.
    destruct (forall_loop _ _ _ _ _ _) as [[f|e| |] c]; cbn [looped] in W.
    + destruct W as (HK3 & i & ic & it' & k & W). injection W as -> ->. unfold all_st, all_env, pop. cbn [tl mEnv mDefers mHeap].
      destruct (kept_PopScope _ _ _ _ HK3) as (HP & HK4). destruct c as [s3 vm3 M3]. cbn [cScoper cVM] in *.
      assert (HN3 : NoDup (map fst (svars s3))) by apply HK3.
      assert (M3 = M) by apply HK3. subst M3.
      destruct (PopScope s3) as [pe s4] eqn:Ep. cbn [fst] in HP. subst pe.
      do 2 st1. fin_pop Ep. eexists. reflexivity.
    + destruct W as (HK3 & i & acc & f & it' & k & W). injection W as -> ->. unfold all_st, all_env, pop. cbn [tl mEnv mDefers mHeap].
      destruct (kept_PopScope _ _ _ _ HK3) as (HP & HK4). destruct c as [s3 vm3 M3]. cbn [cScoper cVM] in *.
      assert (HN3 : NoDup (map fst (svars s3))) by apply HK3.
      assert (M3 = M) by apply HK3. subst M3.
      destruct (PopScope s3) as [pe s4] eqn:Ep. cbn [fst] in HP. subst pe.
      st1. fin_pop Ep. eexists _, _. reflexivity.
    + cbn [fst] in W. subst fl. destruct (PopScope (cScoper c)) as [[pe|] s4]; cbn [runs]; apply fst_panic.
    + cbn [fst] in W. subst fl. cbn [runs]. apply fst_hang.
Qed.

Lemma go_All b q : (q <> QNil -> says_enc q) -> says_enc (QAll b q).
Proof.
  intros IH L n s vm M g HK Hh Hn. unfold go_encoding. cbn [v_query type_of enc qheight] in *.
  change (_ ++ ".Encoding")%string with "logop.ForAllGuarded.Encoding".
  assert (Hn2 : (8 <= n)%nat) by (unfold base_fuel in Hn; lia).
  func_named src_logop_ForAllGuarded_Encoding. rewrite plug_defer.
  st1. nil_test q. destruct (is_nil q) eqn:Eq; cbv iota.
  { fin2. rewrite ?sapp_nil_r. eexists _, []. rewrite (app_nil_r g). reflexivity. }
  stp. stp. specialize (IH (is_nil_ne _ Eq)).
  pose proof (go_All_build b q IH (is_nil_ne _ Eq) L n s vm M g HK ltac:(lia) ltac:(lia)) as B.
  cbn [v_query] in B.
  match type of B with runs _ _ (?m _) => assert (K : keeping L (length (scopes s)) M m) end.
  { pose proof (keep_enc (QAll b q) L (length (scopes s)) M ltac:(cbn [qheight]; lia)) as K. cbn [enc] in K. rewrite Eq in K.
    intros c Hc Hr. specialize (K c Hc). unfold wrap in K.
    destruct (bind _ _ c) as [[f|e| |] c']; [apply K; discriminate..|]. now elim Hr. }
  specialize (K _ HK). unfold wrap at 1.
  sub_call B K M f.
  - fin2. now exists k.
  - fin2. rewrite ?sapp_nil_r. now eexists _, k.
Qed.

(* ---- whole queries ---- *)

Theorem go_query q : q <> QNil -> says_enc q.
Proof.
  induction q as [|a|q IH|q1 IH1 q2 IH2|q1 IH1 q2 IH2|v q IH|b q IH]; intros Hq.
  - now elim Hq.
  - apply atom_encoding.
  - now apply go_Not.
  - now apply go_And.
  - now apply go_Or.
  - now apply go_With.
  - now apply go_All.
Qed.

(* Without a context. *)
Lemma go_nilctx_atom n a h :
  (3 <= n)%nat ->
  gocall n (type_of (v_atom a) ++ ".Encoding") [v_atom a; VNil] h = (Ok [v_cnf TrueCNF; VErr nil_ctx_err []], h).
Proof.
  intros Hn. destruct n as [|[|[|n]]]; [lia..|]. destruct a; reflexivity.
Qed.
Theorem go_nilctx n q h :
  q <> QNil -> (3 <= n)%nat ->
  match enc_nilctx q with
  | Err e => gocall n (type_of (v_query q) ++ ".Encoding") [v_query q; VNil] h = (Ok [v_cnf TrueCNF; VErr e []], h)
  | _ => False
  end.
Proof.
  intros Hq Hn. destruct q as [|a|q|q1 q2|q1 q2|v q|b q]; cbn [enc_nilctx v_query type_of].
  - now elim Hq.
  - now apply go_nilctx_atom.
  - change (_ ++ ".Encoding")%string with "logop.Not.Encoding". func_named src_logop_Not_Encoding. rewrite plug_defer.
    st1. nil_test q. destruct (is_nil q); cbv iota; fin2; rewrite ?sapp_nil_r; lazy; reflexivity.
  - change (_ ++ ".Encoding")%string with "logop.And.Encoding". func_named src_logop_And_Encoding. rewrite plug_defer.
    st1. nil_test q1. destruct (is_nil q1); cbv iota; [fin2; rewrite ?sapp_nil_r; lazy; reflexivity|].
    stp. st1. nil_test q2. destruct (is_nil q2); cbv iota; fin2; rewrite ?sapp_nil_r; lazy; reflexivity.
  - change (_ ++ ".Encoding")%string with "logop.Or.Encoding". func_named src_logop_Or_Encoding. rewrite plug_defer.
    st1. nil_test q1. destruct (is_nil q1); cbv iota; [fin2; rewrite ?sapp_nil_r; lazy; reflexivity|].
    stp. st1. nil_test q2. destruct (is_nil q2); cbv iota; fin2; rewrite ?sapp_nil_r; lazy; reflexivity.
  - change (_ ++ ".Encoding")%string with "logop.WithVar.Encoding". func_named src_logop_WithVar_Encoding. rewrite plug_defer.
    st1. nil_test q. destruct (is_nil q); cbv iota; fin2; rewrite ?sapp_nil_r; lazy; reflexivity.
  - change (_ ++ ".Encoding")%string with "logop.ForAllGuarded.Encoding". func_named src_logop_ForAllGuarded_Encoding. rewrite plug_defer.
    st1. nil_test q. destruct (is_nil q); cbv iota; fin2; rewrite ?sapp_nil_r; lazy; reflexivity.
Qed.
