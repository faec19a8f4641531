(* Property C70: what is encoded does not depend on how a scoper is made, nor on
   the order in which Go goes through a map. *)
From Coq Require Import Permutation.
From Verif Require Import GoBase GoLemmas Cnf Query QueryLemmas Walk Atoms Logop Scopers GoLang GoSource SrcBase SrcLemmas SrcCnf SrcQuery SrcCtx SrcLogop PropContext PropTruth PropText.
Local Open Scope string_scope.
Local Open Scope Z_scope.
Local Open Scope list_scope.

(* X answers like Y: states related by R give the same answers and related states. *)
Record like (X Y : impl) (R : st X -> st Y -> Prop) : Prop := {
  li_var : forall s s' v, R s s' -> i_ScopeVar X s v = i_ScopeVar Y s' v;
  li_const : forall s s' k, R s s' -> i_ScopeConst X s k = i_ScopeConst Y s' k;
  li_add : forall s s' v, R s s' -> R (i_AddVar X s v) (i_AddVar Y s' v);
  li_scope : forall s s' t, R s s' -> R (i_AddScope X s t) (i_AddScope Y s' t);
  li_pop : forall s s', R s s' -> fst (i_PopScope X s) = fst (i_PopScope Y s') /\ R (snd (i_PopScope X s)) (snd (i_PopScope Y s'));
  li_set : forall s s' i l, R s s' -> fst (i_SetScope X s i l) = fst (i_SetScope Y s' i l) /\ R (snd (i_SetScope X s i l)) (snd (i_SetScope Y s' i l)) }.

Section Two.
  Variables (X Y : impl) (R : st X -> st Y -> Prop).
  Hypothesis L : like X Y R.

  Definition near (c : sctx X) (d : sctx Y) : Prop := R (sS X c) (sS Y d) /\ sVM X c = sVM Y d /\ sM X c = sM Y d.
  Definition agrees {A} (p : res A * sctx X) (p' : res A * sctx Y) : Prop := fst p = fst p' /\ near (snd p) (snd p').
  Definition alike {A} (m : SM X A) (m' : SM Y A) : Prop := forall c d, near c d -> agrees (m c) (m' d).

  Lemma al_lift {A} (r : res A) : alike (s_lift X r) (s_lift Y r).
  Proof. intros c d H. split; [reflexivity|exact H]. Qed.
  Lemma al_ret {A} (a : A) : alike (s_ret X a) (s_ret Y a).
  Proof. apply al_lift. Qed.
  Lemma al_bind {A B} (m : SM X A) m' (f : A -> SM X B) f' : alike m m' -> (forall a, alike (f a) (f' a)) -> alike (s_bind X m f) (s_bind Y m' f').
  Proof.
    intros Hm Hf c d H. unfold s_bind. destruct (Hm c d H) as [E N]. destruct (m c) as [r c1], (m' d) as [r' d1]. cbn [fst snd] in *. subst r'.
    destruct r; [now apply Hf|split; [reflexivity|exact N]..].
  Qed.
  Lemma al_wrap {A} p (m : SM X A) m' : alike m m' -> alike (s_wrap X p m) (s_wrap Y p m').
  Proof.
    intros Hm c d H. unfold s_wrap. destruct (Hm c d H) as [E N]. destruct (m c) as [r c1], (m' d) as [r' d1]. cbn [fst snd] in *. subst r'.
    destruct r; split; try reflexivity; exact N.
  Qed.
  Lemma al_Negate f : alike (s_Negate X f) (s_Negate Y f).
  Proof. intros c d (H1 & H2 & H3). unfold s_Negate. rewrite H2. split; [reflexivity|]. split; [exact H1|]. split; [reflexivity|exact H3]. Qed.
  Lemma satom_ext sv sv' sc sc' M a : (forall v, sv v = sv' v) -> (forall k, sc k = sc' k) -> satom_enc sv sc M a = satom_enc sv' sc' M a.
  Proof. intros V C. destruct a; cbn [satom_enc]; repeat rewrite ?V, ?C; reflexivity. Qed.
  Lemma al_atom a : alike (senc_atom X a) (senc_atom Y a).
  Proof.
    intros c d (H1 & H2 & H3). unfold senc_atom.
    rewrite (satom_ext (i_ScopeVar X (sS X c)) (i_ScopeVar Y (sS Y d)) (fun k => fst (i_ScopeConst X (sS X c) k)) (fun k => fst (i_ScopeConst Y (sS Y d) k))), H3, H2.
    - destruct (satom_enc _ _ (sM Y d) a) as [[b|es]| | |]; try (split; [reflexivity|]; repeat split; assumption).
      destruct (run_emits (sVM Y d) es) as [f vm]. split; [reflexivity|]. split; [exact H1|]. split; [reflexivity|exact H3].
    - intros v. apply (li_var _ _ _ L), H1.
    - intros k. now rewrite (li_const _ _ _ L _ _ k H1).
  Qed.
  Lemma al_encodeI v : alike (sencodeI X v) (sencodeI Y v).
  Proof.
    unfold sencodeI. apply al_bind.
    - intros c d H. split; [apply (li_var _ _ _ L), H|exact H].
    - intros w c d (H1 & H2 & H3). rewrite H2, H3. destruct (CNFVarExists _ _); [split; [reflexivity|repeat split; assumption]|].
      destruct (run_emits _ _) as [f vm]. split; [reflexivity|]. split; [exact H1|]. split; [reflexivity|exact H3].
  Qed.
  Lemma al_defer {A} (m : SM X A) m' : alike m m' -> alike (s_defer X m) (s_defer Y m').
  Proof.
    intros Hm c d H. unfold s_defer. destruct (Hm c d H) as [E N]. destruct (m c) as [r c1], (m' d) as [r' d1]. cbn [fst snd] in *. subst r'.
    destruct N as (N1 & N2 & N3). destruct (li_pop _ _ _ L _ _ N1) as [P1 P2].
    destruct (i_PopScope X (sS X c1)) as [pe s], (i_PopScope Y (sS Y d1)) as [pe' s']. cbn [fst snd] in *. subst pe'.
    destruct r, pe; split; try reflexivity; repeat split; assumption.
  Qed.
  Lemma al_put {A} (a : res A) g g' : (forall s s', R s s' -> R (g s) (g' s')) ->
    alike (fun c => (a, put_S X c (g (sS X c)))) (fun d => (a, put_S Y d (g' (sS Y d)))).
  Proof. intros G c d (H1 & H2 & H3). split; [reflexivity|]. split; [now apply G|]. now split. Qed.
  Lemma al_loop fuel : forall body body' it i acc, alike body body' -> alike (sforall_loop X fuel body it i acc) (sforall_loop Y fuel body' it i acc).
  Proof.
    induction fuel as [|fuel IH]; intros body body' it i acc Hb; cbn [sforall_loop]; [apply al_lift|].
    apply al_bind; [apply al_lift|]. intros [[|] it']; [|apply al_ret]. apply al_bind.
    - intros c d (H1 & H2 & H3). destruct (li_set _ _ _ L _ _ i (it_t it') H1) as [S1 S2].
      destruct (i_SetScope X _ _ _) as [e s], (i_SetScope Y _ _ _) as [e' s']. cbn [fst snd] in *. subst e'. split; [reflexivity|]. repeat split; assumption.
    - intros _. apply al_bind; [exact Hb|]. intros f. now apply IH.
  Qed.
  Lemma al_enc q : alike (senc X q) (senc Y q).
  Proof.
    induction q as [|a|q IH|q1 IH1 q2 IH2|q1 IH1 q2 IH2|v q IH|b q IH]; cbn [senc].
    - apply al_lift.
    - apply al_atom.
    - apply al_wrap. destruct (is_nil q); [apply al_lift|]. apply al_bind; [exact IH|]. apply al_Negate.
    - apply al_wrap. destruct (is_nil q1); [apply al_lift|]. destruct (is_nil q2); [apply al_lift|].
      apply al_bind; [now apply al_wrap|]. intros f1. apply al_bind; [now apply al_wrap|]. intros f2. apply al_ret.
    - apply al_wrap. destruct (is_nil q1); [apply al_lift|]. destruct (is_nil q2); [apply al_lift|].
      apply al_bind; [now apply al_wrap|]. intros f1. apply al_bind; [now apply al_wrap|]. intros f2.
      apply al_bind; [apply al_Negate|]. intros g1. apply al_bind; [apply al_Negate|]. intros g2. apply al_Negate.
    - apply al_wrap. destruct (is_nil q); [apply al_lift|]. apply al_bind.
      + apply (al_put (Ok tt) (fun s => i_AddVar X s v) (fun s => i_AddVar Y s v)). intros s s'. apply (li_add _ _ _ L).
      + intros _. apply al_bind; [apply al_encodeI|]. intros fi. apply al_bind; [exact IH|]. intros f. apply al_ret.
    - apply al_wrap. destruct (is_nil q); [apply al_lift|]. apply al_bind.
      + apply (al_put (Ok tt) (fun s => i_AddScope X s (cID b)) (fun s => i_AddScope Y s (cID b))). intros s s'. apply (li_scope _ _ _ L).
      + intros _. apply al_defer. intros c d H. pose proof H as (_ & _ & H3). rewrite H3.
        apply (al_bind (s_lift X _) (s_lift Y _)); [apply al_lift|intros it; now apply al_loop|exact H].
  Qed.
End Two.

(* The library's own scoper in this form is [enc]. *)
Definition as_sctx (c : ctx) : sctx base := mkSctx base (cScoper c) (cVM c) (cModel c).
Definition as_run {A} (p : res A * ctx) : res A * sctx base := (fst p, as_sctx (snd p)).
Lemma base_bind {A B} (m : SM base A) (m' : M A) (f : A -> SM base B) (f' : A -> M B) :
  (forall c, m (as_sctx c) = as_run (m' c)) -> (forall a c, f a (as_sctx c) = as_run (f' a c)) -> forall c, s_bind base m f (as_sctx c) = as_run (bind m' f' c).
Proof. intros Hm Hf c. unfold s_bind, bind. rewrite Hm. unfold as_run at 1. destruct (m' c) as [[a| | |] c']; cbn [fst snd]; auto. Qed.
Lemma base_wrap {A} p (m : SM base A) (m' : M A) : (forall c, m (as_sctx c) = as_run (m' c)) -> forall c, s_wrap base p m (as_sctx c) = as_run (wrap p m' c).
Proof. intros Hm c. unfold s_wrap, wrap. rewrite Hm. unfold as_run at 1. destruct (m' c) as [[a| | |] c']; reflexivity. Qed.
Lemma base_enc q : forall c, senc base q (as_sctx c) = as_run (enc q c).
Proof.
  assert (NG : forall f c, s_Negate base f (as_sctx c) = as_run (m_Negate f c)) by reflexivity.
  induction q as [|a|q IH|q1 IH1 q2 IH2|q1 IH1 q2 IH2|v q IH|b q IH]; cbn [senc enc].
  - reflexivity.
  - intros c. unfold senc_atom, enc_atom. rewrite satom_enc_same. cbn [as_sctx sS sVM sM base i_ScopeVar i_ScopeConst].
    destruct (satom_enc _ _ _ a) as [[x|es]| | |]; try reflexivity. destruct (run_emits (cVM c) es); reflexivity.
  - apply base_wrap. destruct (is_nil q); [reflexivity|]. apply base_bind; [exact IH|]. intros f c. apply NG.
  - apply base_wrap. destruct (is_nil q1); [reflexivity|]. destruct (is_nil q2); [reflexivity|].
    apply base_bind; [now apply base_wrap|]. intros f1. apply base_bind; [now apply base_wrap|]. reflexivity.
  - apply base_wrap. destruct (is_nil q1); [reflexivity|]. destruct (is_nil q2); [reflexivity|].
    apply base_bind; [now apply base_wrap|]. intros f1. apply base_bind; [now apply base_wrap|]. intros f2.
    apply base_bind; [apply NG|]. intros g1. apply base_bind; [apply NG|]. intros g2 c. apply NG.
  - apply base_wrap. destruct (is_nil q); [reflexivity|]. apply base_bind; [reflexivity|]. intros _. apply base_bind.
    + unfold sencodeI, encodeI. apply base_bind; [reflexivity|]. intros w c. cbn [as_sctx sVM sM]. destruct (CNFVarExists _ _); [reflexivity|].
      destruct (run_emits _ _); reflexivity.
    + intros fi. apply base_bind; [exact IH|]. reflexivity.
  - apply base_wrap. destruct (is_nil q); [reflexivity|]. apply base_bind; [reflexivity|]. intros _ c. unfold s_defer, defer_PopScope.
    cbn [as_sctx sM].
    assert (LP : forall fuel it i acc c, sforall_loop base fuel (senc base q) it i acc (as_sctx c) = as_run (forall_loop fuel (enc q) it i acc c)).
    { induction fuel as [|fuel IHf]; intros it i acc; cbn [sforall_loop forall_loop]; [reflexivity|].
      apply base_bind; [reflexivity|]. intros [[|] it'] c0; [|reflexivity]. revert c0. apply base_bind.
      - intros c0. unfold m_SetScope. cbn [as_sctx sS base i_SetScope]. destruct (SetScope _ _ _) as [[e|] s]; reflexivity.
      - intros _. apply base_bind; [exact IH|]. intros f c0. apply IHf. }
    change (mkSctx base (cScoper c) (cVM c) (cModel c)) with (as_sctx c).
    erewrite (base_bind (s_lift base _) (lift _)); [|reflexivity|intros it c0; apply LP].
    unfold as_run at 1. destruct (bind _ _ c) as [r c']. cbn [fst snd as_sctx sS base i_PopScope].
    destruct r; try reflexivity; destruct (PopScope _) as [[pe|] s]; reflexivity.
Qed.

(* Any scoper that answers like the library's: the same formulas, errors, panics and
   variable numbers, for every query, and again a scoper that answers like it. *)
Theorem C70_any_scoper : forall X R, like X base R -> forall q (s : st X) c, R s (cScoper c) ->
  let p := senc X q (mkSctx X s (cVM c) (cModel c)) in
  fst p = fst (enc q c) /\ sVM X (snd p) = cVM (snd (enc q c)) /\ sM X (snd p) = cModel (snd (enc q c)) /\ R (sS X (snd p)) (cScoper (snd (enc q c))).
Proof.
  intros X R L q s c H p. destruct (al_enc X base R L q (mkSctx X s (cVM c) (cModel c)) (as_sctx c)) as (E & N1 & N2 & N3).
  - repeat split. exact H.
  - rewrite base_enc in *. cbn [as_run fst snd as_sctx sS sVM sM] in *. auto.
Qed.
Print Assumptions C70_any_scoper.

(* ---- the order of a map ---- *)

(* Before each operation the map may be put into any order, as Go's range does. *)
Definition shuffled (pi : list (string * nat) -> list (string * nat)) : impl :=
  let sh s := mkScoper (scopes s) (pi (svars s)) in
  mkImpl scoper (fun s => ScopeVar (sh s)) (fun s => AddVar (sh s)) (fun s => ScopeConst (sh s)) (fun s => AddScope (sh s))
    (fun s => PopScope (sh s)) (fun s => SetScope (sh s)).
Definition reordered (s s' : scoper) : Prop := scopes s = scopes s' /\ Permutation (svars s) (svars s') /\ NoDup (map fst (svars s)).

Lemma slookup_in l v n : NoDup (map fst l) -> (slookup l v = Some n <-> In (v, n) l).
Proof.
  induction l as [|[k x] l IH]; intros D; cbn [slookup In]; [split; [discriminate|intros []]|]. inversion D as [|? ? D1 D2]; subst.
  destruct (String.eqb_spec k v) as [->|N].
  - split; [intros [= ->]; now left|]. intros [[= ->]|I]; [reflexivity|]. elim D1. now apply (in_map fst) in I.
  - rewrite (IH D2). split; [now right|]. intros [[= -> ->]|I]; [congruence|exact I].
Qed.
Lemma slookup_ext l l' v : NoDup (map fst l) -> NoDup (map fst l') -> (forall n, In (v, n) l <-> In (v, n) l') -> slookup l v = slookup l' v.
Proof.
  intros D D' E. destruct (slookup l v) as [n|] eqn:A.
  - symmetry. apply slookup_in; [exact D'|]. apply E. now apply slookup_in.
  - destruct (slookup l' v) as [n|] eqn:B; [|reflexivity]. apply slookup_in in B; [|exact D']. apply E in B. apply slookup_in in B; [|exact D]. congruence.
Qed.
Lemma slookup_perm l l' v : Permutation l l' -> NoDup (map fst l) -> slookup l v = slookup l' v.
Proof.
  intros P D. apply slookup_ext; [exact D|exact (Permutation_NoDup (Permutation_map fst P) D)|].
  intros n. split; apply Permutation_in; [exact P|now apply Permutation_sym].
Qed.
Lemma NoDup_filter_keys (f : string * nat -> bool) l : NoDup (map fst l) -> NoDup (map fst (filter f l)).
Proof.
  induction l as [|x l IH]; intros D; cbn; [constructor|]. inversion D as [|? ? D1 D2]; subst. destruct (f x); [|auto]. cbn. constructor; [|auto].
  intros I. apply D1. apply in_map_iff in I as (y & E & I). apply filter_In in I as [I _]. rewrite <- E. now apply in_map.
Qed.
Lemma perm_filter (f : string * nat -> bool) l l' : Permutation l l' -> Permutation (filter f l) (filter f l').
Proof.
  induction 1 as [|x l l' P IH|x y l|l1 l2 l3 P1 IH1 P2 IH2]; cbn.
  - constructor.
  - destruct (f x); [now constructor|exact IH].
  - destruct (f x), (f y); try apply Permutation_refl. apply perm_swap.
  - now apply perm_trans with (filter f l2).
Qed.

Lemma reordered_like pi : (forall l, Permutation (pi l) l) -> like (shuffled pi) base reordered.
Proof.
  intros HP.
  assert (B : forall s s', reordered s s' -> reordered (mkScoper (scopes s) (pi (svars s))) s').
  { intros s s' (E & P & D). split; [exact E|]. cbn [svars]. split; [now apply perm_trans with (svars s)|].
    exact (Permutation_NoDup (Permutation_map fst (Permutation_sym (HP _))) D). }
  assert (V : forall s s' v, reordered s s' -> ScopeVar s v = ScopeVar s' v).
  { intros s s' v (E & P & D). unfold ScopeVar. now rewrite E, (slookup_perm _ _ v P D). }
  constructor; cbn [shuffled base i_ScopeVar i_ScopeConst i_AddVar i_AddScope i_PopScope i_SetScope st]; intros s s'; intros *; intros H; apply B in H;
    set (s1 := mkScoper (scopes s) (pi (svars s))) in *; clearbody s1; clear s.
  - now apply V.
  - destruct H as (E & _). unfold ScopeConst. now rewrite E.
  - pose proof H as (E & P & D). unfold AddVar. rewrite <- E. destruct (length (scopes s1) =? 0)%nat; [exact H|].
    rewrite <- (slookup_perm _ _ v P D). destruct (slookup (svars s1) v) as [n|] eqn:LK; [exact H|]. split; [reflexivity|]. cbn [svars map fst].
    split; [now constructor|]. constructor; [|exact D]. intros I. apply in_map_iff in I as ([w n] & E1 & I). cbn in E1. subst w.
    apply slookup_in in I; [|exact D]. congruence.
  - destruct H as (E & P & D). split; [cbn; now rewrite E|]. now split.
  - pose proof H as (E & P & D). unfold PopScope. rewrite <- E. destruct (scopes s1) as [|x l] eqn:Es; [split; [reflexivity|]; split; [cbn [snd]; congruence|now split]|].
    split; [reflexivity|]. cbn [snd]. split; [reflexivity|]. cbn [svars]. split; [now apply perm_filter|now apply NoDup_filter_keys].
  - pose proof H as (E & P & D). unfold SetScope. rewrite <- E. destruct (scopes s1) as [|x r] eqn:Es; [split; [reflexivity|]; split; [cbn [snd]; congruence|now split]|].
    split; [reflexivity|]. cbn [snd]. split; [reflexivity|]. now split.
Qed.

(* However the map is ordered and reordered, the encoding of a query is the same,
   and so are all numbers of variables. *)
Theorem C70_map_order : forall pi q m, (forall l, Permutation (pi l) l) ->
  let p := senc (shuffled pi) q (mkSctx (shuffled pi) (cScoper (BasicQContext m)) (cVM (BasicQContext m)) m) in
  fst p = fst (enc q (BasicQContext m)) /\ sVM (shuffled pi) (snd p) = cVM (snd (enc q (BasicQContext m))).
Proof.
  intros pi q m HP p. destruct (C70_any_scoper (shuffled pi) reordered (reordered_like pi HP) q (cScoper (BasicQContext m)) (BasicQContext m)) as (A & B & _ & _).
  - split; [reflexivity|]. split; [apply Permutation_refl|constructor].
  - now split.
Qed.
Print Assumptions C70_map_order.

(* The text, on two contexts whose maps have the same pairs in different orders. *)
Definition same_context (c d : ctx) : Prop := reordered (cScoper c) (cScoper d) /\ cVM c = cVM d /\ cModel c = cModel d.
Definition same_outcome (p p' : res (list val) * heap) : Prop :=
  match fst p, fst p' with
  | Ok [f; VNil], Ok [f'; VNil] => f = f'
  | Ok [_; VErr e l], Ok [_; VErr e' l'] => e = e' /\ l = l'
  | Panic, Panic | Hang, Hang => True
  | _, _ => False
  end.
Theorem C70_text_order : forall q c d g n, same_context c d -> q <> QNil -> (text_fuel q c <= n)%nat ->
  let p := go_encoding n q (v_ctx c :: g) in
  let p' := go_encoding n q (v_ctx d :: g) in
  same_outcome p p' /\
  forall vs, fst p = Ok vs -> exists c' d' k k', snd p = v_ctx c' :: g ++ k /\ snd p' = v_ctx d' :: g ++ k' /\ same_context c' d'.
Proof.
  intros q c d g n (R & EV & EM) Hq Hn p p'. pose proof R as (ES & P & D).
  assert (D' : NoDup (map fst (svars (cScoper d)))) by exact (Permutation_NoDup (Permutation_map fst P) D).
  assert (LE : levels (cScoper c) = levels (cScoper d)).
  { assert (IM : forall x l, In x l -> (x <= list_max l)%nat) by (intros x l; apply (proj1 (Forall_forall _ _) (proj1 (list_max_le l (list_max l)) (le_n _)))).
    unfold levels. apply Nat.le_antisymm; apply list_max_le, Forall_forall; intros x Hx; apply IM.
    - exact (Permutation_in _ (Permutation_map snd P) Hx).
    - exact (Permutation_in _ (Permutation_sym (Permutation_map snd P)) Hx). }
  assert (Hn' : (text_fuel q d <= n)%nat) by (unfold text_fuel in *; rewrite <- LE, <- ES, <- EM; exact Hn).
  pose proof (C63_query q c g n Hq D Hn) as X. pose proof (C63_query q d g n Hq D' Hn') as Y.
  pose proof (C70_any_scoper (shuffled (fun l => l)) reordered (reordered_like _ (fun l => Permutation_refl l)) q (cScoper c) d R) as (A1 & A2 & A3 & A4).
  pose proof (C70_any_scoper (shuffled (fun l => l)) reordered (reordered_like _ (fun l => Permutation_refl l)) q (cScoper c) c) as B.
  destruct B as (B1 & B2 & B3 & B4); [split; [reflexivity|]; split; [apply Permutation_refl|exact D]|].
  rewrite <- EV, <- EM in A1, A2, A3, A4. set (r := senc _ q _) in *.
  destruct (enc q c) as [rc c'], (enc q d) as [rd d']. cbn [fst snd] in *. assert (RR : rd = rc) by congruence. clear A1 B1. subst rd. rewrite A2 in B2. rewrite A3 in B3.
  assert (SC : same_context c' d').
  { split; [|split; congruence]. destruct A4 as (Z1 & Z2 & Z3), B4 as (W1 & W2 & W3). split; [congruence|]. split; [now apply perm_trans with (svars (sS _ (snd r))); [apply Permutation_sym|]|].
    exact (Permutation_NoDup (Permutation_map fst W2) W3). }
  unfold same_outcome. subst p p'. destruct rc as [f|e| |].
  - destruct X as (k & ->), Y as (k' & ->). cbn [fst snd]. split; [reflexivity|]. intros _ _. now exists c', d', k, k'.
  - destruct X as (f & k & ->), Y as (f' & k' & ->). cbn [fst snd]. split; [now split|]. intros _ _. now exists c', d', k, k'.
  - rewrite X, Y. split; [exact Logic.I|discriminate].
  - rewrite X, Y. split; [exact Logic.I|discriminate].
Qed.
Print Assumptions C70_text_order.

(* ---- another scoper ---- *)

(* A stack of frames, each with the variables declared in it. *)
Record frame1 := mkFrame { f_scope : scope; f_vars : list QVar }.
Definition declared_in (v : QVar) (f : frame1) : bool := existsb (String.eqb v) (f_vars f).
(* the first frame that declares v, counted from 1 *)
Fixpoint level_of (fs : list frame1) (v : QVar) : option nat :=
  match fs with
  | [] => None
  | f :: r => if declared_in v f then Some 1%nat else option_map S (level_of r v)
  end.
(* v followed by the names of the frames down to the one that declares it *)
Definition fr_ScopeVar (fs : list frame1) (v : QVar) : res QVar :=
  Ok (match level_of fs v with
      | Some k => fold_left (fun a f => a ++ scope_suffix (f_scope f)) (firstn k fs) v
      | None => v
      end)%string.
Definition fr_AddVar (fs : list frame1) (v : QVar) : list frame1 :=
  match level_of fs v, rev fs with
  | None, f :: r => rev r ++ [mkFrame (f_scope f) (v :: f_vars f)]
  | _, _ => fs
  end.
Definition fr_ScopeConst (fs : list frame1) (k : QConst) : QConst * bool :=
  match find (fun f => String.eqb (sTarget (f_scope f)) (cID k)) fs with
  | Some f => (mkQConst (cID k) (sValue (f_scope f)), true)
  | None => (k, false)
  end.
Definition fr_PopScope (fs : list frame1) : option string * list frame1 :=
  match rev fs with
  | [] => (Some "Invalid scope removal in empty scoper", fs)
  | _ :: r => (None, rev r)
  end.
Definition fr_SetScope (fs : list frame1) (i : Z) (l : list FeatV) : option string * list frame1 :=
  match rev fs with
  | [] => (Some "Invalid setting of scope in empty scoper", fs)
  | f :: r => (None, rev r ++ [mkFrame (mkScope (sTarget (f_scope f)) l i) (f_vars f)])
  end.
Definition frames : impl :=
  mkImpl (list frame1) fr_ScopeVar fr_AddVar fr_ScopeConst (fun fs t => fs ++ [mkFrame (mkScope t [] 0) []]) fr_PopScope fr_SetScope.

Definition stands (fs : list frame1) (s : scoper) : Prop :=
  scopes s = map f_scope fs /\ NoDup (map fst (svars s)) /\ forall v, slookup (svars s) v = level_of fs v.

Lemma level_app fs gs v : level_of (fs ++ gs) v = match level_of fs v with Some k => Some k | None => option_map (Nat.add (length fs)) (level_of gs v) end.
Proof.
  induction fs as [|f fs IH]; cbn [app level_of length].
  - destruct (level_of gs v); reflexivity.
  - destruct (declared_in v f); [reflexivity|]. rewrite IH. destruct (level_of fs v); [reflexivity|]. destruct (level_of gs v); reflexivity.
Qed.
Lemma level_bound fs v k : level_of fs v = Some k -> (1 <= k <= length fs)%nat.
Proof.
  revert k. induction fs as [|f fs IH]; intros k; cbn [level_of length]; [discriminate|]. destruct (declared_in v f); [intros [= <-]; lia|].
  destruct (level_of fs v) as [j|]; [|discriminate]. intros [= <-]. specialize (IH j eq_refl). lia.
Qed.
Lemma level_last fs f v : level_of (fs ++ [f]) v = match level_of fs v with Some k => Some k | None => if declared_in v f then Some (S (length fs)) else None end.
Proof. rewrite level_app. destruct (level_of fs v); [reflexivity|]. cbn [level_of]. destruct (declared_in v f); [|reflexivity]. cbn. f_equal. lia. Qed.

Lemma ScopeVar_fold fs : forall k a, (k <= length fs)%nat ->
  fold_left (fun acc i => rdo b <- acc ;; rdo sc <- sget (map f_scope fs) (Z.of_nat i) ;; Ok (b ++ scope_suffix sc)%string) (seq 0 k) (Ok a)
  = Ok (fold_left (fun a f => a ++ scope_suffix (f_scope f))%string (firstn k fs) a).
Proof.
  induction k as [|k IH]; intros a Hk; [reflexivity|]. rewrite seq_S, fold_left_app, IH by lia. cbn [fold_left rbind Nat.add].
  destruct (nth_error fs k) as [f|] eqn:E; [|apply nth_error_None in E; lia].
  assert (G : sget (map f_scope fs) (Z.of_nat k) = Ok (f_scope f)).
  { unfold sget. rewrite (proj2 (Z.ltb_ge _ _)) by lia. rewrite Nat2Z.id, nth_error_map, E. reflexivity. }
  rewrite G. cbn [rbind].
  assert (F : firstn (S k) fs = firstn k fs ++ [f]).
  { clear - E. revert fs E. induction k as [|k IH]; intros [|x fs] E; try discriminate; cbn in *; [now injection E as ->|]. now rewrite <- IH. }
  rewrite F, fold_left_app. reflexivity.
Qed.

Lemma frames_like : like frames base stands.
Proof.
  constructor; cbn [frames base i_ScopeVar i_ScopeConst i_AddVar i_AddScope i_PopScope i_SetScope st]; intros fs s; intros *; intros (E & D & LK).
  - unfold fr_ScopeVar, ScopeVar. rewrite E, map_length, LK. destruct (Nat.eqb_spec (length fs) 0) as [Z|Z].
    + destruct fs; [reflexivity|discriminate Z].
    + destruct (level_of fs v) as [k|] eqn:LV; [|reflexivity]. symmetry. apply ScopeVar_fold. apply level_bound in LV. lia.
  - unfold fr_ScopeConst, ScopeConst. rewrite E. clear. induction fs as [|f fs IH]; [reflexivity|]. cbn [find map find_scope]. destruct (String.eqb _ _); [reflexivity|exact IH].
  - unfold fr_AddVar, AddVar. rewrite E, map_length, LK. destruct fs as [|f0 fs0] using rev_ind; [cbn; now repeat split|]. clear IHfs0.
    rewrite rev_app_distr. cbn [rev app]. rewrite rev_involutive, app_length. cbn [length].
    rewrite (proj2 (Nat.eqb_neq _ _)) by lia. destruct (level_of (fs0 ++ [f0]) v) as [k|] eqn:LV; [now repeat split|].
    split; [|split].
    + cbn [scopes]. rewrite !map_app. reflexivity.
    + cbn [svars map fst]. constructor; [|exact D]. apply slookup_none. now rewrite LK.
    + intros w. cbn [svars slookup]. rewrite level_last. rewrite level_last in LV. destruct (level_of fs0 v) as [|] eqn:L0; [discriminate|].
      destruct (String.eqb_spec v w) as [<-|N].
      * rewrite L0. unfold declared_in. cbn [f_vars existsb]. rewrite String.eqb_refl. cbn [orb]. f_equal. lia.
      * rewrite LK, level_last. unfold declared_in. cbn [f_vars existsb]. rewrite (proj2 (String.eqb_neq w v)) by congruence. reflexivity.
  - split; [cbn [scopes AddScope]; now rewrite map_app, E|]. split; [exact D|]. intros v. cbn [svars AddScope]. rewrite LK, level_last.
    destruct (level_of fs v); reflexivity.
  - unfold fr_PopScope, PopScope. rewrite E. destruct fs as [|f0 fs0] using rev_ind; [cbn; now repeat split|]. clear IHfs0.
    rewrite rev_app_distr. cbn [rev app]. rewrite map_app. cbn [map]. rewrite app_length, map_length. cbn [length].
    destruct (map f_scope fs0 ++ [f_scope f0]) as [|x l] eqn:M; [now destruct (map f_scope fs0)|]. rewrite <- M. cbn [fst snd]. split; [reflexivity|].
    rewrite rev_involutive, removelast_last. split; [reflexivity|]. cbn [svars]. split; [now apply NoDup_filter_keys|]. intros v. specialize (LK v). rewrite level_last in LK.
    destruct (level_of fs0 v) as [k|] eqn:L0.
    + apply slookup_in; [now apply NoDup_filter_keys|]. apply filter_In. split; [now apply slookup_in|]. cbn [snd]. apply level_bound in L0.
      rewrite (proj2 (Nat.eqb_neq _ _)) by lia. reflexivity.
    + destruct (slookup (filter _ _) v) as [k|] eqn:S; [|reflexivity]. apply slookup_in in S; [|now apply NoDup_filter_keys]. apply filter_In in S as [S1 S2].
      apply slookup_in in S1; [|exact D]. rewrite LK in S1. destruct (declared_in v f0); [|discriminate]. injection S1 as <-. cbn [snd] in S2.
      rewrite (proj2 (Nat.eqb_eq _ _)) in S2 by lia. discriminate.
  - unfold fr_SetScope, SetScope. rewrite E. destruct fs as [|f0 fs0] using rev_ind; [cbn; now repeat split|]. clear IHfs0.
    rewrite rev_app_distr. cbn [rev app]. rewrite map_app. cbn [map].
    destruct (map f_scope fs0 ++ [f_scope f0]) as [|x r] eqn:M; [now destruct (map f_scope fs0)|]. rewrite <- M. cbn [fst snd]. split; [reflexivity|].
    rewrite rev_involutive, removelast_last, last_last. split; [cbn [scopes]; now rewrite map_app|]. cbn [svars]. split; [exact D|]. intros v. rewrite LK, !level_last. reflexivity.
Qed.

(* The frames stand for the library's stack and map: encoded with them, every query
   has the formula, the error or the panic it has with the library's scoper. *)
Theorem C70_frames : forall q m,
  let p := senc frames q (mkSctx frames [] (cVM (BasicQContext m)) m) in
  fst p = fst (enc q (BasicQContext m)) /\ sVM frames (snd p) = cVM (snd (enc q (BasicQContext m))).
Proof.
  intros q m p. destruct (C70_any_scoper frames stands frames_like q [] (BasicQContext m)) as (A & B & _ & _).
  - split; [reflexivity|]. split; [constructor|reflexivity].
  - now split.
Qed.
Print Assumptions C70_frames.

(* ---- concrete cases ---- *)

(* Three variables, two of them inside a quantifier, so that the map has several
   pairs when PopScope goes through it. *)
Definition inside : query :=
  QWith "x" (QAll (mkQConst "k" []) (QWith "y" (QWith "z" (QAnd (QAtom (SubsVV "x" "y")) (QOr (QAtom (SubsCV (mkQConst "k" []) "z")) (QAtom (SubsVV "y" "z"))))))).
Example C70_case :
  (exists f, fst (senc (shuffled (@rev _)) inside (mkSctx (shuffled (@rev _)) (cScoper (BasicQContext stump)) (cVM (BasicQContext stump)) stump)) = Ok f /\ (100 < length (sClauses f) + length (cClauses f))%nat) /\
  (exists f, fst (senc frames inside (mkSctx frames [] (cVM (BasicQContext stump)) stump)) = Ok f /\ (100 < length (sClauses f) + length (cClauses f))%nat).
Proof. split; eexists; (split; [vm_compute; reflexivity|vm_compute; lia]). Qed.
(* two contexts that differ in the order of the map *)
Example C70_text_case :
  let c l := mkCtx (mkScoper [mkScope "k" [ONE; BOT] 3] l) (cVM (BasicQContext stump)) stump in
  same_context (c [("y", 1%nat); ("z", 1%nat)]) (c [("z", 1%nat); ("y", 1%nat)]) /\ c [("y", 1%nat); ("z", 1%nat)] <> c [("z", 1%nat); ("y", 1%nat)].
Proof.
  cbv zeta. split; [|discriminate]. split; [|now split]. split; [reflexivity|]. split; [apply perm_swap|].
  cbn. constructor; [intros [H|[]]; discriminate|]. constructor; [intros []|constructor].
Qed.
