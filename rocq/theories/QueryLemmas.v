(* Lemmas about Query.v: variable manager, scoper, context. *)
From Verif Require Import GoBase GoLemmas Query.
Local Open Scope string_scope.
Local Open Scope Z_scope.

(* ---- triples ---- *)

Lemma varRep_eqb_spec : forall a b, reflect (a = b) (varRep_eqb a b).
Proof.
  intros [[v i] x] [[w j] y]. unfold varRep_eqb.
  destruct (String.eqb_spec v w); simpl; [|constructor; congruence].
  destruct (Z.eqb_spec i j); simpl; [|constructor; congruence].
  destruct (Z.eqb_spec x y); constructor; congruence.
Qed.
Lemma varRep_eqb_refl : forall a, varRep_eqb a a = true.
Proof. intros a. destruct (varRep_eqb_spec a a); congruence. Qed.

(* ---- variable manager ---- *)

(* Invariant of the variable manager. *)
Definition vm_inv (vm : varman) : Prop :=
  0 <= vm_topv vm /\
  (forall t n, vlookup (vm_vars vm) t = Some n -> 1 <= n <= vm_topv vm) /\
  (forall t t' n, vlookup (vm_vars vm) t = Some n -> vlookup (vm_vars vm) t' = Some n -> t = t').

(* Every number of vm is kept by vm', and new numbers are above vm's TopV. *)
Definition vm_ext (vm vm' : varman) : Prop :=
  vm_topv vm <= vm_topv vm' /\
  (forall t n, vlookup (vm_vars vm) t = Some n -> vlookup (vm_vars vm') t = Some n) /\
  (forall t n, vlookup (vm_vars vm') t = Some n -> vlookup (vm_vars vm) t = None -> vm_topv vm < n).

Lemma vm_inv_init : vm_inv (mkVarman 0 []).
Proof. repeat split; simpl; intros; try lia; discriminate. Qed.

Lemma vm_ext_refl : forall vm, vm_ext vm vm.
Proof. intros; repeat split; auto; try lia. congruence. Qed.
Lemma vm_ext_trans : forall a b c, vm_ext a b -> vm_ext b c -> vm_ext a c.
Proof.
  intros a b c (A1 & A2 & A3) (B1 & B2 & B3). split; [lia|]. split; [auto|].
  intros t n H Hn. destruct (vlookup (vm_vars b) t) as [m|] eqn:E.
  - specialize (B2 _ _ E). rewrite B2 in H. injection H as <-. eapply A3; eauto.
  - specialize (B3 _ _ H E). lia.
Qed.

Lemma CNFVar_spec : forall vm t n vm', vm_inv vm -> CNFVar vm t = (n, vm') ->
  vm_inv vm' /\ vm_ext vm vm' /\ vlookup (vm_vars vm') t = Some n /\
  (forall u, u <> t -> vlookup (vm_vars vm') u = vlookup (vm_vars vm) u).
Proof.
  intros vm t n vm' (I0 & I1 & I2) H. unfold CNFVar in H.
  destruct (vlookup (vm_vars vm) t) as [m|] eqn:E; injection H as <- <-.
  - split; [repeat split; auto; apply I1 in H; lia|]. split; [apply vm_ext_refl|]. auto.
  - assert (Hd : forall u m, vlookup ((t, vm_topv vm + 1) :: vm_vars vm) u = Some m ->
                   (u = t /\ m = vm_topv vm + 1) \/ (u <> t /\ vlookup (vm_vars vm) u = Some m)).
    { intros u m. simpl. destruct (varRep_eqb_spec t u); [left|right]; split; congruence. }
    split; [|split; [|split]].
    + split; [simpl; lia|]. split; simpl vm_vars; simpl vm_topv.
      * intros u m Hu. apply Hd in Hu as [[_ ->]|[_ Hu]]; [lia|]. apply I1 in Hu. lia.
      * intros u u' m Hu Hu'. apply Hd in Hu as [[-> ->]|[_ Hu]]; apply Hd in Hu' as [[-> Hm]|[_ Hu']]; auto.
        -- apply I1 in Hu'. lia.
        -- apply I1 in Hu. lia.
        -- eauto.
    + split; [simpl; lia|]. split; simpl vm_vars; simpl vm_topv.
      * intros u m Hu. simpl. destruct (varRep_eqb_spec t u); [congruence|auto].
      * intros u m Hu Hn. apply Hd in Hu as [[_ ->]|[_ Hu]]; [lia|congruence].
    + simpl. now rewrite varRep_eqb_refl.
    + intros u Hu. simpl. destruct (varRep_eqb_spec t u); congruence.
Qed.

Lemma UpdateTopV_spec : forall vm k b vm', vm_inv vm -> UpdateTopV vm k = (b, vm') ->
  vm_inv vm' /\ vm_ext vm vm' /\ vm_vars vm' = vm_vars vm /\
  (b = true -> vm_topv vm' = k) /\ (b = false -> vm' = vm /\ k < vm_topv vm).
Proof.
  intros vm k b vm' (I0 & I1 & I2) H. unfold UpdateTopV in H.
  destruct (Z.ltb_spec k (vm_topv vm)) as [L|L]; injection H as <- <-.
  - split; [repeat split; auto; apply I1 in H; lia|]. split; [apply vm_ext_refl|].
    split; auto. split; [discriminate|auto].
  - split.
    { split; [simpl; lia|]. split; simpl; auto. intros t n Ht. apply I1 in Ht. lia. }
    split.
    { split; [simpl; lia|]. split; simpl; auto. congruence. }
    split; auto. split; auto. discriminate.
Qed.

(* ---- scoper ---- *)

(* Name of a variable declared below the given scopes. *)
Definition scoped_name (v : string) (l : list scope) : string :=
  fold_left (fun b sc => b ++ scope_suffix sc) l v.

Definition lvl_of (s : scoper) (v : string) : nat :=
  match slookup (svars s) v with Some n => n | None => 0%nat end.

(* Recorded levels are between 1 and the height of the stack. *)
Definition sc_inv (s : scoper) : Prop :=
  Forall (fun kv => (1 <= snd kv <= length (scopes s))%nat) (svars s).

Lemma slookup_In : forall m v n, slookup m v = Some n -> In (v, n) m.
Proof.
  induction m as [|[k n'] m IH]; simpl; intros v n H; [discriminate|].
  destruct (String.eqb_spec k v); [left; congruence|right; auto].
Qed.

Lemma sc_inv_lvl : forall s v n, sc_inv s -> slookup (svars s) v = Some n ->
  (1 <= n <= length (scopes s))%nat.
Proof.
  intros s v n H Hl. apply slookup_In in Hl. unfold sc_inv in H.
  rewrite Forall_forall in H. apply (H _ Hl).
Qed.

Lemma sget_nth : forall A (l : list A) i a, nth_error l i = Some a -> sget l (Z.of_nat i) = Ok a.
Proof.
  intros A l i a H. unfold sget. destruct (Z.ltb_spec (Z.of_nat i) 0); [lia|].
  now rewrite Nat2Z.id, H.
Qed.

Definition sv_step (l : list scope) (acc : res string) (i : nat) : res string :=
  rdo b <- acc ;; rdo sc <- sget l (Z.of_nat i) ;; Ok (b ++ scope_suffix sc).

Lemma sv_fold : forall l a b, (a + b <= length l)%nat -> forall v,
  fold_left (sv_step l) (seq a b) (Ok v) = Ok (scoped_name v (firstn b (skipn a l))).
Proof.
  intros l a b. revert a. induction b as [|b IH]; intros a H v; simpl.
  - reflexivity.
  - destruct (nth_error l a) as [sc|] eqn:E.
    2:{ apply nth_error_None in E. lia. }
    rewrite (sget_nth _ _ _ _ E). simpl.
    fold (sv_step l). rewrite IH by lia.
    assert (Hs : skipn a l = sc :: skipn (S a) l).
    { clear -E. revert l E. induction a as [|a IHa]; intros [|x l] E; simpl in *; try discriminate.
      - congruence.
      - now apply IHa. }
    rewrite Hs. reflexivity.
Qed.

Lemma ScopeVar_ok : forall s v, sc_inv s ->
  ScopeVar s v = Ok (scoped_name v (firstn (lvl_of s v) (scopes s))).
Proof.
  intros s v H. unfold ScopeVar.
  destruct (Nat.eqb_spec (length (scopes s)) 0) as [E|E].
  - destruct (scopes s); [|discriminate]. now rewrite firstn_nil.
  - fold (sv_step (scopes s)). fold (lvl_of s v).
    rewrite sv_fold; [reflexivity|].
    unfold lvl_of. destruct (slookup (svars s) v) eqn:El; [|lia].
    apply sc_inv_lvl in El; auto. lia.
Qed.

(* without the invariant: either a panic or the name below some prefix *)
Lemma sv_fold_panic : forall l is_, fold_left (sv_step l) is_ Panic = Panic.
Proof. induction is_; simpl; auto. Qed.

Lemma ScopeVar_cases : forall s v n, ScopeVar s v = Ok n ->
  (length (scopes s) = 0 /\ n = v \/
   lvl_of s v <= length (scopes s) /\
   n = scoped_name v (firstn (lvl_of s v) (scopes s)))%nat.
Proof.
  intros s v n. unfold ScopeVar.
  destruct (Nat.eqb_spec (length (scopes s)) 0) as [E|E].
  - intros [= <-]. auto.
  - fold (sv_step (scopes s)). fold (lvl_of s v). intros H. right.
    destruct (le_lt_dec (lvl_of s v) (length (scopes s))) as [L|L].
    + split; auto. rewrite sv_fold in H by lia. simpl in H. congruence.
    + exfalso.
      replace (lvl_of s v) with (length (scopes s) + S (lvl_of s v - length (scopes s) - 1))%nat in H by lia.
      rewrite seq_app, fold_left_app, sv_fold in H by lia.
      simpl in H.
      assert (Hp : sget (scopes s) (Z.of_nat (length (scopes s))) = Panic).
      { unfold sget. destruct (Z.ltb_spec (Z.of_nat (length (scopes s))) 0); [lia|].
        rewrite Nat2Z.id.
        rewrite (proj2 (nth_error_None (scopes s) (length (scopes s)))) by lia. reflexivity. }
      rewrite Hp in H. simpl in H. rewrite sv_fold_panic in H. discriminate.
Qed.

Definition sc_key (g : scope) : string * Z := (sTarget g, sIdx g).

Fixpoint path_fields (l : list (string * Z)) : list string :=
  match l with [] => [] | (t, i) :: r => t :: itoa i :: path_fields r end.

Lemma scoped_name_join : forall l v,
  scoped_name v l = sjoin us (v :: path_fields (map sc_key l)).
Proof.
  assert (G : forall l v, scoped_name v l =
    v ++ match l with [] => "" | _ => String us (sjoin us (path_fields (map sc_key l))) end).
  { induction l as [|g l IH]; intros v; simpl.
    - now rewrite sapp_nil_r.
    - unfold scoped_name in *. simpl. rewrite IH. rewrite sapp_assoc. f_equal.
      unfold scope_suffix. simpl. f_equal. rewrite !sapp_assoc. simpl.
      destruct l as [|g' l]; simpl.
      + now rewrite sapp_nil_r.
      + reflexivity. }
  intros l v. rewrite G. destruct l as [|g l]; simpl; [apply sapp_nil_r|reflexivity].
Qed.

Lemma path_fields_inj : forall l l', path_fields l = path_fields l' -> l = l'.
Proof.
  induction l as [|[t i] l IH]; intros [|[t' i'] l'] H; simpl in H; try discriminate; auto.
  injection H as -> Hi H. apply itoa_inj in Hi as ->. f_equal. auto.
Qed.

Lemma path_fields_no_us : forall l, Forall (fun g => no_char us (sTarget g) = true) l ->
  forallb (no_char us) (path_fields (map sc_key l)) = true.
Proof.
  induction 1 as [|g l H Hl IH]; simpl; auto. now rewrite H, itoa_no_us.
Qed.

Lemma scoped_name_inj : forall v l v' l',
  no_char us v = true -> no_char us v' = true ->
  Forall (fun g => no_char us (sTarget g) = true) l ->
  Forall (fun g => no_char us (sTarget g) = true) l' ->
  scoped_name v l = scoped_name v' l' -> v = v' /\ map sc_key l = map sc_key l'.
Proof.
  intros v l v' l' Hv Hv' Hl Hl' H. rewrite !scoped_name_join in H.
  apply (f_equal (split_on us)) in H.
  rewrite !split_join in H; try discriminate.
  - injection H as -> H. apply path_fields_inj in H. auto.
  - simpl. now rewrite Hv', path_fields_no_us.
  - simpl. now rewrite Hv, path_fields_no_us.
Qed.

Lemma scoped_name_key : forall v l l', map sc_key l = map sc_key l' -> scoped_name v l = scoped_name v l'.
Proof. intros v l l' H. now rewrite !scoped_name_join, H. Qed.

Lemma scoped_name_app : forall v l l', scoped_name v (l ++ l') = scoped_name (scoped_name v l) l'.
Proof. intros. unfold scoped_name. apply fold_left_app. Qed.

(* ---- stack operations ---- *)

Lemma sc_inv_init : sc_inv (mkScoper [] []).
Proof. constructor. Qed.
Lemma sc_inv_AddVar : forall s v, sc_inv s -> sc_inv (AddVar s v).
Proof.
  intros s v H. unfold AddVar. destruct (Nat.eqb_spec (length (scopes s)) 0); auto.
  destruct (slookup (svars s) v); auto. constructor; auto. simpl. lia.
Qed.
Lemma sc_inv_AddScope : forall s t, sc_inv s -> sc_inv (AddScope s t).
Proof.
  intros s t H. unfold AddScope, sc_inv in *. simpl. rewrite app_length. simpl.
  eapply Forall_impl; [|exact H]. simpl; intros; lia.
Qed.
Lemma length_removelast : forall A (l : list A), length (removelast l) = (length l - 1)%nat.
Proof.
  induction l as [|a [|b l] IH]; simpl; auto. simpl in IH. rewrite IH. lia.
Qed.
Lemma sc_inv_PopScope : forall s, sc_inv s -> sc_inv (snd (PopScope s)).
Proof.
  intros s H. unfold PopScope. destruct (scopes s) as [|g l] eqn:E; auto.
  unfold sc_inv in *. cbn [snd scopes svars]. rewrite length_removelast.
  rewrite Forall_forall in *. intros kv Hin. apply filter_In in Hin as [Hin Hn].
  specialize (H _ Hin). rewrite E in H. apply negb_true_iff, Nat.eqb_neq in Hn. lia.
Qed.
Lemma SetScope_length : forall s i v, length (scopes (snd (SetScope s i v))) = length (scopes s).
Proof.
  intros. unfold SetScope. destruct (scopes s) as [|g l] eqn:E; cbn [snd]; [now rewrite E|].
  cbn [scopes]. rewrite app_length, length_removelast. simpl. lia.
Qed.
Lemma SetScope_svars : forall s i v, svars (snd (SetScope s i v)) = svars s.
Proof. intros. unfold SetScope. destruct (scopes s); reflexivity. Qed.
Lemma sc_inv_SetScope : forall s i v, sc_inv s -> sc_inv (snd (SetScope s i v)).
Proof. intros. unfold sc_inv. rewrite SetScope_length, SetScope_svars. exact H. Qed.
Lemma sc_inv_Reset_empty : forall s, sc_inv s -> scopes s = [] -> s = mkScoper [] [].
Proof.
  intros [sc sv] H E. simpl in E. subst. f_equal. destruct sv as [|kv sv]; auto.
  inversion H; subst. simpl in *. lia.
Qed.
