(* The slice that a guarded quantifier hands to SetScope is the buffer its
   iterator writes to.  Here scopes hold references to buffers instead of copies
   of their contents (Query.v), and encoding is shown to be the same. *)
From Verif Require Import GoBase Cnf Query Walk Atoms Logop.
Local Open Scope Z_scope.
Local Open Scope list_scope.

(* ---- model ---- *)

(* query/scoper.go:42-46; the value is nil or a whole buffer: forallguarded.go:58
   and 185 never reslice it. *)
Record bscope := mkBscope { bTarget : string; bRef : option nat; bIdx : Z }.
(* The context of Query.v, and the buffers made so far (forallguarded.go:57). *)
Record bctx := mkBctx { bScopes : list bscope; bVars : list (string * nat); bVM : varman; bModel : model; bBufs : list (list FeatV) }.

Definition contents (bufs : list (list FeatV)) (r : option nat) : list FeatV := match r with None => [] | Some k => nth k bufs [] end.
Definition see (bufs : list (list FeatV)) (s : bscope) : scope := mkScope (bTarget s) (contents bufs (bRef s)) (bIdx s).
(* What can be seen through the methods of the context. *)
Definition view (b : bctx) : ctx := mkCtx (mkScoper (map (see (bBufs b)) (bScopes b)) (bVars b)) (bVM b) (bModel b).

Definition MB (A : Type) : Type := bctx -> res A * bctx.
Definition bret {A} (a : A) : MB A := fun b => (Ok a, b).
Definition blift {A} (r : res A) : MB A := fun b => (r, b).
Definition bbind {A B} (m : MB A) (f : A -> MB B) : MB B :=
  fun b => match m b with
           | (Ok a, b') => f a b'
           | (Err e, b') => (Err e, b')
           | (Panic, b') => (Panic, b')
           | (Hang, b') => (Hang, b')
           end.
Notation "'bdo' x <- m ;; k" := (bbind m (fun x => k)) (at level 200, x pattern, m at level 100, k at level 200).
Definition bwrap {A} (p : string) (m : MB A) : MB A :=
  fun b => match m b with
           | (Err e, b') => (Err (p ++ ": " ++ e)%string, b')
           | r => r
           end.
(* Methods that look at scopes and change at most the levels of the variables
   (AddVar) and the variable manager. *)
Definition through {A} (m : M A) : MB A :=
  fun b => let (r, c) := m (view b) in (r, mkBctx (bScopes b) (svars (cScoper c)) (cVM c) (bModel b) (bBufs b)).

(* query/scoper.go:89-91 *)
Definition b_AddScope (t : string) : MB unit :=
  fun b => (Ok tt, mkBctx (bScopes b ++ [mkBscope t None 0]) (bVars b) (bVM b) (bModel b) (bBufs b)).
(* query/scoper.go:109-117 *)
Definition b_SetScope (i : Z) (k : nat) : MB unit :=
  fun b => match bScopes b with
           | [] => (Err "Invalid setting of scope in empty scoper", b)
           | _ => (Ok tt, mkBctx (removelast (bScopes b) ++ [mkBscope (bTarget (last (bScopes b) (mkBscope "" None 0))) (Some k) i]) (bVars b) (bVM b) (bModel b) (bBufs b))
           end.
(* query/scoper.go:93-107 *)
Definition b_PopScope (b : bctx) : option string * bctx :=
  match bScopes b with
  | [] => (Some "Invalid scope removal in empty scoper", b)
  | _ => (None, mkBctx (removelast (bScopes b)) (filter (fun kv => negb (snd kv =? length (bScopes b))%nat) (bVars b)) (bVM b) (bModel b) (bBufs b))
  end%string.
(* forallguarded.go:172-176 *)
Definition b_defer {A} (m : MB A) : MB A :=
  fun b =>
    let (r, b') := m b in
    match r with
    | Hang => (Hang, b')
    | _ =>
        let (perr, b'') := b_PopScope b' in
        match perr, r with
        | None, _ => (r, b'')
        | Some pe, Err e => (Err (e ++ newline ++ pe)%string, b'')
        | Some pe, Ok _ => (Err pe, b'')
        | Some _, r => (r, b'')
        end
    end.
(* forallguarded.go:57: a new buffer *)
Definition b_make (t : list FeatV) : MB nat :=
  fun b => (Ok (length (bBufs b)), mkBctx (bScopes b) (bVars b) (bVM b) (bModel b) (bBufs b ++ [t])).
(* forallguarded.go:93-140 in place: reads and writes buffer k.  (What a
   panicking Next has written before is not recorded: the scope is popped.) *)
Definition b_Next (k : nat) (it : iter) : MB (bool * iter) :=
  fun b => match Next (mkIter (nth k (bBufs b) []) (it_nodes it) (it_walk it) (it_cp it)) with
           | Ok (more, it') => (Ok (more, it'), mkBctx (bScopes b) (bVars b) (bVM b) (bModel b) (list_set (bBufs b) k (it_t it')))
           | Err e => (Err e, b)
           | Panic => (Panic, b)
           | Hang => (Hang, b)
           end.
(* forallguarded.go:184-197 *)
Fixpoint b_loop (fuel : nat) (body : MB CNF) (k : nat) (it : iter) (i : Z) (acc : CNF) : MB CNF :=
  match fuel with
  | O => blift Hang
  | S f =>
      bdo r <- b_Next k it ;;
      let '(more, it) := r in
      if (more : bool) then
        bdo _ <- b_SetScope i k ;;
        bdo icnf <- body ;;
        b_loop f body k it (i + 1) (Conjunction acc icnf)
      else bret acc
  end.

(* The Encoding methods, as in Logop.v. *)
Fixpoint benc (q : query) : MB CNF :=
  match q with
  | QNil => blift Panic
  | QAtom a => through (enc_atom a)
  | QNot q => bwrap "Not" (if is_nil q then blift (Err nil_child_err) else bdo f <- benc q ;; through (m_Negate f))
  | QAnd q1 q2 =>
      bwrap "And"
        (if is_nil q1 then blift (Err (nil_child_err ++ " (1)")%string)
         else if is_nil q2 then blift (Err (nil_child_err ++ " (2)")%string)
         else bdo f1 <- bwrap "Q1" (benc q1) ;; bdo f2 <- bwrap "Q2" (benc q2) ;; bret (Conjunction f1 f2))
  | QOr q1 q2 =>
      bwrap "Or"
        (if is_nil q1 then blift (Err (nil_child_err ++ " (1)")%string)
         else if is_nil q2 then blift (Err (nil_child_err ++ " (2)")%string)
         else bdo f1 <- bwrap "Q1" (benc q1) ;; bdo f2 <- bwrap "Q2" (benc q2) ;;
              bdo g1 <- through (m_Negate f1) ;; bdo g2 <- through (m_Negate f2) ;; through (m_Negate (Conjunction g1 g2)))
  | QWith v q =>
      bwrap "WithVar"
        (if is_nil q then blift (Err nil_child_err)
         else bdo _ <- through (m_AddVar v) ;; bdo fi <- through (encodeI v) ;; bdo f <- benc q ;; bret (Conjunction fi f))
  | QAll c q =>
      bwrap "ForAllGuarded"
        (if is_nil q then blift (Err nil_child_err)
         else
           bdo _ <- b_AddScope (cID c) ;;
           b_defer (fun b =>
             (bdo it <- blift (newNodeAsValuesIter (Dim (bModel b)) (Nodes (bModel b))) ;;
              bdo k <- b_make (it_t it) ;;
              b_loop (forall_fuel (Nodes (bModel b))) (benc q) k it 0 TrueCNF) b))
  end.

(* ---- proof ---- *)

Definition refs_below (n : nat) (l : list bscope) : Prop := Forall (fun s => match bRef s with None => True | Some k => (k < n)%nat end) l.
Lemma refs_more : forall n n' l, (n <= n')%nat -> refs_below n l -> refs_below n' l.
Proof. intros n n' l L H. induction H as [|s l H1 H2 IH]; constructor; auto. destruct (bRef s); auto. lia. Qed.
Definition grown (b b' : bctx) : Prop := bScopes b' = bScopes b /\ bModel b' = bModel b /\ exists new, bBufs b' = bBufs b ++ new.
Lemma grown_refl : forall b, grown b b.
Proof. intros b. split; auto. split; auto. exists []. now rewrite app_nil_r. Qed.
Lemma grown_trans : forall a b c, grown a b -> grown b c -> grown a c.
Proof. intros a b c (A1 & A2 & n & A3) (B1 & B2 & n' & B3). split; [congruence|]. split; [congruence|]. exists (n ++ n'). rewrite B3, A3. now rewrite app_assoc. Qed.
Lemma see_app : forall bufs new l, refs_below (length bufs) l -> map (see (bufs ++ new)) l = map (see bufs) l.
Proof.
  intros bufs new l H. induction H as [|s l H1 H2 IH]; auto. cbn [map]. rewrite IH. f_equal. unfold see. f_equal. destruct (bRef s) as [k|]; auto. cbn [contents]. now apply app_nth1.
Qed.
Lemma see_set : forall bufs k t l, refs_below k l -> map (see (list_set bufs k t)) l = map (see bufs) l.
Proof.
  intros bufs k t l H. induction H as [|s l H1 H2 IH]; auto. cbn [map]. rewrite IH. f_equal. unfold see. f_equal. destruct (bRef s) as [j|]; auto. cbn [contents].
  clear - H1. revert k j H1. induction bufs as [|x bufs IH]; intros [|k] j H; cbn [list_set]; auto; [lia|]. destruct j; auto. cbn [nth]. apply IH. lia.
Qed.

Definition agree_on {A} (mb : MB A) (m : M A) : Prop :=
  forall b, refs_below (length (bBufs b)) (bScopes b) ->
  match mb b, m (view b) with
  | (rb, b'), (r, c') => rb = r /\ (r <> Hang -> c' = view b' /\ grown b b')
  end.

Lemma agree_through : forall A (m : M A), (forall c, scopes (cScoper (snd (m c))) = scopes (cScoper c) /\ cModel (snd (m c)) = cModel c) -> agree_on (through m) m.
Proof.
  intros A m H b R. unfold through. specialize (H (view b)). destruct (m (view b)) as [r c']. cbn [snd] in H. destruct H as [H1 H2]. split; auto. intros _. split.
  - destruct c' as [[ss vs] vm md]. cbn in *. subst. reflexivity.
  - split; auto. split; auto. exists []. now rewrite app_nil_r.
Qed.
Lemma agree_lift : forall A (r : res A), agree_on (blift r) (lift r).
Proof. intros A r b R. cbn. split; auto. intros _. split; auto. apply grown_refl. Qed.
Lemma agree_bind : forall A B (mb : MB A) (m : M A) (kb : A -> MB B) (k : A -> M B), agree_on mb m -> (forall a, agree_on (kb a) (k a)) -> agree_on (bbind mb kb) (bind m k).
Proof.
  intros A B mb m kb k H K b R. unfold bbind, bind. specialize (H b R). destruct (mb b) as [rb b'], (m (view b)) as [r c']. destruct H as [-> H].
  destruct r as [a|e| |]; try (split; [reflexivity|intros X; first [congruence|apply H; discriminate]]).
  destruct H as [-> G]; [discriminate|]. assert (R' : refs_below (length (bBufs b')) (bScopes b')).
  { destruct G as (G1 & _ & n & G2). rewrite G1, G2, app_length. eapply refs_more; [|exact R]. lia. }
  specialize (K a b' R'). destruct (kb a b') as [rb2 b2], (k a (view b')) as [r2 c2]. destruct K as [-> K]. split; auto. intros X. destruct (K X) as [-> G2]. split; auto. eapply grown_trans; eauto.
Qed.
Lemma agree_wrap : forall A p (mb : MB A) (m : M A), agree_on mb m -> agree_on (bwrap p mb) (wrap p m).
Proof.
  intros A p mb m H b R. unfold bwrap, wrap. specialize (H b R). destruct (mb b) as [rb b'], (m (view b)) as [r c']. destruct H as [-> H].
  destruct r as [a|e| |]; auto. split; auto. intros _. apply H. discriminate.
Qed.

(* Contexts that differ at most in the value and index of the innermost scope. *)
Definition but_top (c c' : ctx) : Prop :=
  removelast (scopes (cScoper c)) = removelast (scopes (cScoper c')) /\ map sTarget (scopes (cScoper c)) = map sTarget (scopes (cScoper c')) /\
  svars (cScoper c) = svars (cScoper c') /\ cVM c = cVM c' /\ cModel c = cModel c'.

Lemma last_target : forall (l l' : list scope) d, map sTarget l = map sTarget l' -> sTarget (last l d) = sTarget (last l' d).
Proof.
  induction l as [|x l IH]; intros [|y l'] d E; try discriminate; auto. injection E as E1 E2. destruct l as [|x' l], l' as [|y' l']; try discriminate; auto.
  change (sTarget (last (x' :: l) d) = sTarget (last (y' :: l') d)). now apply IH.
Qed.
Lemma map_removelast : forall A B (f : A -> B) l, map f (removelast l) = removelast (map f l).
Proof. intros A B f. induction l as [|x l IH]; auto. destruct l as [|y l]; auto. cbn [removelast map] in *. now rewrite IH. Qed.

(* The loop on buffer k. *)
Lemma agree_loop : forall (mb : MB CNF) (m : M CNF), agree_on mb m -> forall fuel k it i acc b c ss top old more,
  but_top c (view b) -> bScopes b = ss ++ [top] -> refs_below k ss -> bBufs b = old ++ it_t it :: more -> length old = k ->
  match b_loop fuel mb k it i acc b, forall_loop fuel m it i acc c with
  | (rb, b'), (r, c') => rb = r /\ (r <> Hang -> but_top c' (view b') /\ bModel b' = bModel b /\ (exists top', bScopes b' = ss ++ [top']) /\ exists t' more', bBufs b' = old ++ t' :: more')
  end.
Proof.
  intros mb m H. induction fuel as [|fuel IH]; intros k it i acc b c ss top old more BT SS RB BB LO; [split; [reflexivity|congruence]|].
  cbn [b_loop forall_loop]. unfold bbind at 1, bind at 1, b_Next, lift.
  assert (E : mkIter (nth k (bBufs b) []) (it_nodes it) (it_walk it) (it_cp it) = it).
  { rewrite BB, app_nth2, LO, Nat.sub_diag by lia. destruct it; reflexivity. }
  rewrite E. destruct (Next it) as [[mo it']|e| |]; [|split; [reflexivity|]; intros _; split; [exact BT|]; split; [reflexivity|]; split; eauto|split; [reflexivity|]; intros _; split; [exact BT|]; split; [reflexivity|]; split; eauto|split; [reflexivity|]; intros X; now elim X].
  assert (BB' : list_set (bBufs b) k (it_t it') = old ++ it_t it' :: more).
  { rewrite BB, <- LO. clear. induction old as [|x old IH]; auto. cbn [app length list_set]. now rewrite IH. }
  destruct BT as (B1 & B2 & B3 & B4 & B5). cbn [view cScoper scopes svars cVM cModel] in B1, B2, B3, B4, B5. rewrite SS in B1, B2.
  rewrite map_app in B1. cbn [map] in B1. rewrite removelast_last in B1. destruct mo.
  - unfold bbind at 1, bind at 1, b_SetScope, m_SetScope, SetScope. cbn [bScopes bVars bVM bModel bBufs]. rewrite BB', SS.
    destruct (ss ++ [top]) as [|s0 sr] eqn:ES; [destruct ss; discriminate|]. rewrite <- ES in *. clear ES s0 sr.
    destruct (scopes (cScoper c)) as [|s0 sr] eqn:EC; [cbn in B2; destruct ss; discriminate|]. rewrite <- EC in *.
    set (b1 := mkBctx (removelast (ss ++ [top]) ++ [mkBscope (bTarget (last (ss ++ [top]) (mkBscope "" None 0))) (Some k) i]) (bVars b) (bVM b) (bModel b) (old ++ it_t it' :: more)).
    assert (V : set_scoper c (mkScoper (removelast (scopes (cScoper c)) ++ [mkScope (sTarget (last (scopes (cScoper c)) (mkScope "" [] 0))) (it_t it') i]) (svars (cScoper c))) = view b1).
    { unfold view, b1, set_scoper. cbn [bScopes bVars bVM bModel bBufs]. rewrite B3, B4, B5. f_equal. f_equal. rewrite removelast_last, last_last, map_app. cbn [map]. f_equal.
      - rewrite B1. rewrite <- BB'. symmetry. now apply see_set.
      - unfold see. cbn [bTarget bRef bIdx contents]. f_equal. f_equal.
        + rewrite (last_target _ _ _ B2), map_app. cbn [map]. now rewrite last_last.
        + rewrite app_nth2, LO, Nat.sub_diag by lia. reflexivity. }
    rewrite V. clear B1 B2 B3 B4 B5 V. assert (R1 : refs_below (length (bBufs b1)) (bScopes b1)).
    { unfold b1. cbn [bBufs bScopes]. rewrite removelast_last, app_length, LO. cbn [length]. apply Forall_app. split; [|repeat constructor; cbn; lia].
      eapply refs_more; [|exact RB]. lia. }
    specialize (H b1 R1). unfold bbind, bind. destruct (mb b1) as [rb b2], (m (view b1)) as [r c2]. destruct H as [-> H].
    assert (SS1 : bScopes b1 = ss ++ [mkBscope (bTarget top) (Some k) i]) by (unfold b1; cbn [bScopes]; now rewrite removelast_last, last_last).
    assert (Q : r <> Hang -> but_top c2 (view b2) /\ bModel b2 = bModel b /\ bScopes b2 = ss ++ [mkBscope (bTarget top) (Some k) i] /\ exists more', bBufs b2 = old ++ it_t it' :: more').
    { intros X. destruct (H X) as (-> & G1 & G2 & n & G3). split; [repeat split|]. split; [exact G2|]. split; [congruence|]. exists (more ++ n). rewrite G3. unfold b1. cbn [bBufs]. now rewrite <- app_assoc. }
    destruct r as [f|e| |]; try (split; [reflexivity|intros X; try congruence; destruct (Q X) as (Q1 & Q2 & Q3 & n & Q4); split; auto; split; auto; split; eauto]).
    destruct Q as (Q1 & Q2 & Q3 & n & Q4); [discriminate|]. specialize (IH k it' (i + 1) (Conjunction acc f) b2 c2 ss _ old n Q1 Q3 RB Q4 LO).
    destruct (b_loop fuel mb k it' (i + 1) (Conjunction acc f) b2) as [r3 b3], (forall_loop fuel m it' (i + 1) (Conjunction acc f) c2) as [r3' c3].
    destruct IH as [-> IH]. split; auto. intros X. destruct (IH X) as (I1 & I2 & I3 & I4). split; auto. split; [congruence|]. auto.
  - unfold bret, ret. split; auto. intros _. rewrite BB'. split; [|split; [reflexivity|split; [exists top; exact SS|exists (it_t it'), more; reflexivity]]].
    unfold but_top. cbn [view cScoper scopes svars cVM cModel bScopes bVars bVM bModel bBufs]. rewrite SS. repeat split; auto.
    + rewrite map_app. cbn [map]. rewrite removelast_last, B1, <- BB'. symmetry. now apply see_set.
    + rewrite B2. rewrite !map_map. reflexivity.
Qed.

Lemma negate_scopes : forall f c, scopes (cScoper (snd (m_Negate f c))) = scopes (cScoper c) /\ cModel (snd (m_Negate f c)) = cModel c.
Proof. intros f c. unfold m_Negate, bind, m_TopV, m_UpdateTopV, ret. cbn. auto. Qed.

Theorem benc_agrees : forall q, agree_on (benc q) (enc q).
Proof.
  induction q as [|a|q IH|q1 IH1 q2 IH2|q1 IH1 q2 IH2|v q IH|c q IH]; cbn [benc enc].
  - apply agree_lift.
  - apply agree_through. intros c. unfold enc_atom. destruct (atom_enc c a) as [[bo|es]|e| |]; auto. destruct (run_emits (cVM c) es). auto.
  - apply agree_wrap. destruct (is_nil q); [apply (agree_lift _ (Err nil_child_err))|]. apply agree_bind; auto. intros f. apply agree_through, negate_scopes.
  - apply agree_wrap. destruct (is_nil q1); [apply (agree_lift _ (Err _))|]. destruct (is_nil q2); [apply (agree_lift _ (Err _))|].
    apply agree_bind; [apply agree_wrap, IH1|]. intros f1. apply agree_bind; [apply agree_wrap, IH2|]. intros f2. apply (agree_lift _ (Ok _)).
  - apply agree_wrap. destruct (is_nil q1); [apply (agree_lift _ (Err _))|]. destruct (is_nil q2); [apply (agree_lift _ (Err _))|].
    apply agree_bind; [apply agree_wrap, IH1|]. intros f1. apply agree_bind; [apply agree_wrap, IH2|]. intros f2.
    apply agree_bind; [apply agree_through, negate_scopes|]. intros g1. apply agree_bind; [apply agree_through, negate_scopes|]. intros g2. apply agree_through, negate_scopes.
  - apply agree_wrap. destruct (is_nil q); [apply (agree_lift _ (Err nil_child_err))|].
    apply agree_bind; [apply agree_through; intros c; unfold m_AddVar, AddVar; cbn [snd]; destruct (length (scopes (cScoper c)) =? 0)%nat; [|destruct (slookup (svars (cScoper c)) v)]; destruct c as [[ss vs] vm md]; auto|]. intros _.
    apply agree_bind; [|intros fi; apply agree_bind; [exact IH|]; intros f; apply (agree_lift _ (Ok _))].
    apply agree_through. intros c. unfold encodeI, bind, m_ScopeVar. destruct (ScopeVar (cScoper c) v) as [w|e| |]; auto.
    destruct (CNFVarExists (cVM c) (w, 0, BOT)); auto. destruct (run_emits (cVM c) (withvar_emits (Z.of_nat (Dim (cModel c))) w)). auto.
  - apply agree_wrap. destruct (is_nil q); [apply (agree_lift _ (Err nil_child_err))|]. intros b R. unfold bbind at 1, bind at 1, b_AddScope, m_AddScope.
    set (b1 := mkBctx (bScopes b ++ [mkBscope (cID c) None 0]) (bVars b) (bVM b) (bModel b) (bBufs b)).
    assert (V1 : set_scoper (view b) (AddScope (cScoper (view b)) (cID c)) = view b1).
    { unfold view, set_scoper, AddScope, b1. cbn [cScoper scopes svars cVM cModel bScopes bVars bVM bModel bBufs]. now rewrite map_app. }
    rewrite V1. cbv beta iota. unfold b_defer, defer_PopScope.
    set (lb := (bdo it <- blift (newNodeAsValuesIter (Dim (bModel b1)) (Nodes (bModel b1))) ;; bdo k <- b_make (it_t it) ;; b_loop (forall_fuel (Nodes (bModel b1))) (benc q) k it 0 TrueCNF) b1).
    set (lc := (mdo it <- lift (newNodeAsValuesIter (Dim (cModel (view b1))) (Nodes (cModel (view b1)))) ;; forall_loop (forall_fuel (Nodes (cModel (view b1)))) (enc q) it 0 TrueCNF) (view b1)).
    assert (L : match lb, lc with (rb, b'), (r, c') => rb = r /\ (r <> Hang -> but_top c' (view b') /\ bModel b' = bModel b /\ (exists top', bScopes b' = bScopes b ++ [top']) /\ exists new, bBufs b' = bBufs b ++ new) end).
    { unfold lb, lc. clear lb lc. unfold bbind at 1, bind at 1, blift, lift. change (cModel (view b1)) with (bModel b1). generalize (forall_fuel (Nodes (bModel b1))). intros fuel.
      destruct (newNodeAsValuesIter (Dim (bModel b1)) (Nodes (bModel b1))) as [it|e| |]; cbv beta iota.
      2,3,4: split; [reflexivity|]; intros _; split; [repeat split|]; split; [reflexivity|]; split; [eexists; reflexivity|exists []; unfold b1; cbn [bBufs]; now rewrite app_nil_r].
      unfold bbind, b_make. cbv beta iota. cbn [bScopes bVars bVM bModel bBufs b1].
      set (b2 := mkBctx (bScopes b ++ [mkBscope (cID c) None 0]) (bVars b) (bVM b) (bModel b) (bBufs b ++ [it_t it])).
      assert (V2 : view b2 = view b1).
      { unfold view, b1, b2. cbn [bScopes bVars bVM bModel bBufs]. f_equal. f_equal. apply see_app. apply Forall_app. split; [exact R|repeat constructor]. }
      assert (BT : but_top (view b1) (view b2)) by (rewrite V2; repeat split).
      pose proof (agree_loop (benc q) (enc q) IH fuel (length (bBufs b)) it 0 TrueCNF b2 (view b1) (bScopes b) _ (bBufs b) [] BT eq_refl R eq_refl eq_refl) as A.
      destruct (b_loop fuel (benc q) (length (bBufs b)) it 0 TrueCNF b2) as [rb b'], (forall_loop fuel (enc q) it 0 TrueCNF (view b1)) as [r c']. destruct A as [-> A].
      split; auto. intros X. destruct (A X) as (A1 & A2 & A3 & t' & n & A4). split; auto. split; auto. split; auto. exists (t' :: n). exact A4. }
    clearbody lb lc. destruct lb as [rb b'], lc as [r c']. destruct L as [-> L]. destruct r as [f|e| |]; [| | |split; [reflexivity|intros X; now elim X]].
    all: destruct L as ((B1 & B2 & B3 & B4 & B5) & L2 & (top' & L3) & n & L4); [discriminate|].
    all: cbn [view cScoper scopes svars cVM cModel] in B1, B2, B3, B4, B5; rewrite L3 in B1, B2; rewrite map_app in B1; cbn [map] in B1; rewrite removelast_last in B1.
    all: assert (LN : length (scopes (cScoper c')) = length (bScopes b')) by (apply (f_equal (@length _)) in B2; rewrite !map_length in B2; congruence).
    all: unfold b_PopScope, PopScope; rewrite LN; destruct (scopes (cScoper c')) as [|s0 sr]; [rewrite L3, app_length in LN; cbn in LN; lia|].
    all: clear B2 LN; rewrite L3; clear L3; destruct (bScopes b ++ [top']) as [|s1 sr'] eqn:EB; [destruct (bScopes b); discriminate|]; rewrite <- EB; clear EB s1 sr'; rewrite removelast_last.
    all: split; [reflexivity|]; intros _; split; [|split; [reflexivity|split; [exact L2|exists n; exact L4]]].
    all: unfold view, set_scoper; cbn [bScopes bVars bVM bModel bBufs]; rewrite <- B3, B4, B5, B1, L4, see_app by exact R; reflexivity.
Qed.

(* ---- C51 ---- *)

(* A context nobody has used. *)
Definition bBasic (m : model) : bctx := mkBctx [] [] (mkVarman 0 []) m [].

(* Encoding gives the same CNF, error or panic with shared buffers as with
   copies, in every context whose scopes refer to existing buffers, and leaves
   the same context to be seen; buffers of enclosing quantifiers are not
   written to. *)
Theorem C51_shared_buffer : forall q b r b', refs_below (length (bBufs b)) (bScopes b) -> benc q b = (r, b') ->
  fst (enc q (view b)) = r /\
  (r <> Hang -> snd (enc q (view b)) = view b' /\ bScopes b' = bScopes b /\ forall k, (k < length (bBufs b))%nat -> nth k (bBufs b') [] = nth k (bBufs b) []).
Proof.
  intros q b r b' R E. pose proof (benc_agrees q b R) as A. rewrite E in A. destruct (enc q (view b)) as [r0 c0]. destruct A as [-> A]. split; auto. intros X.
  destruct (A X) as (-> & G1 & _ & n & G2). split; auto. split; auto. intros k Hk. rewrite G2. now apply app_nth1.
Qed.
Print Assumptions C51_shared_buffer.
Corollary C51_new_context : forall q m r b', benc q (bBasic m) = (r, b') ->
  fst (enc q (BasicQContext m)) = r /\ (r <> Hang -> snd (enc q (BasicQContext m)) = view b').
Proof.
  intros q m r b' E. destruct (C51_shared_buffer q (bBasic m) r b' (Forall_nil _) E) as [H1 H2]. split; [exact H1|]. intros X. apply (H2 X).
Qed.
Print Assumptions C51_new_context.

(* Two nested quantifiers; each turn of the outer one makes a buffer for the inner one. *)
Definition two_levels : query := QAll (mkQConst "a" []) (QAll (mkQConst "b" []) (QWith "y" (QAnd (QAtom (SubsCV (mkQConst "a" []) "y")) (QAtom (SubsCV (mkQConst "b" []) "y"))))).
Definition split_model : model := mkModel 2 [mkNode false 0 1 2; mkNode true 0 (-1) (-1); mkNode false 1 3 4; mkNode true 0 (-1) (-1); mkNode false 0 (-1) (-1)].
Example C51_case : exists f b', benc two_levels (bBasic split_model) = (Ok f, b') /\ length (bBufs b') = 6%nat /\ length (sClauses f) = 60%nat /\ fst (enc two_levels (BasicQContext split_model)) = Ok f.
Proof. eexists. eexists. split; [vm_compute; reflexivity|]. split; [reflexivity|]. split; vm_compute; reflexivity. Qed.

(* What sharing does change: a constant taken from ScopeConst and kept is not
   the constant of its turn any more once the iterator moves on. *)
Definition taken (b : bctx) (id : string) : option nat :=
  match find (fun s => String.eqb (bTarget s) id) (bScopes b) with Some s => bRef s | None => None end.
Theorem C51_kept_constant_changes : exists m it k b1 b2 it2,
  newNodeAsValuesIter (Dim m) (Nodes m) = Ok it /\
  (bdo _ <- b_AddScope "a" ;; bdo k <- b_make (it_t it) ;; bdo r <- b_Next k it ;; bdo _ <- b_SetScope 0 k ;; bret (k, snd r)) (bBasic m) = (Ok (k, it2), b1) /\
  fst (ScopeConst (cScoper (view b1)) (mkQConst "a" [])) = mkQConst "a" (contents (bBufs b1) (taken b1 "a")) /\
  snd (b_Next k it2 b1) = b2 /\ contents (bBufs b2) (taken b1 "a") <> contents (bBufs b1) (taken b1 "a").
Proof.
  exists split_model. do 5 eexists. split; [vm_compute; reflexivity|]. split; [vm_compute; reflexivity|]. split; [vm_compute; reflexivity|]. split; [vm_compute; reflexivity|]. vm_compute. discriminate.
Qed.
Print Assumptions C51_kept_constant_changes.
