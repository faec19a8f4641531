(* A discipline for the variable generation functions under which the auxiliary
   variables of a query never clash. *)
From Verif Require Import GoBase GoLemmas Cnf Query Walk Atoms Logop Spec Meaning Truth CnfSem QueryLemmas PropQuery Sym AtomBase Counter AtomRest WalkLemmas AtomMain Form Master Block Ground Sat Outcome.
Local Open Scope string_scope.
Local Open Scope Z_scope.
Local Open Scope list_scope.

(* One function for each purpose; n_arg are the arguments they are made for. *)
Record naming := mkNaming {
  n_arg : string -> Prop;
  n_count : string -> string;                       (* CountVarGen *)
  n_node : string -> string;                        (* ReachNodeVarGen of Node *)
  n_comp : string -> string;                        (* ReachNodeVarGen of AllComp *)
  n_dist : string -> string -> string;              (* HammingDistVarGen *)
  n_eq : string -> string -> string;                (* EqualFeatVarGen *)
  n_pref : string -> string -> string -> string     (* PrefVarGen *)
}.
(* What a generated name is for. *)
Inductive use :=
| UCount (w : string) | UNode (w : string) | UComp (w : string)
| UDist (a b : string) | UEq (a b : string) | UPref (p a b : string).
Definition use_name (N : naming) (u : use) : string :=
  match u with
  | UCount w => n_count N w
  | UNode w => n_node N w
  | UComp w => n_comp N w
  | UDist a b => n_dist N a b
  | UEq a b => n_eq N a b
  | UPref p a b => n_pref N p a b
  end.
Definition use_ok (N : naming) (u : use) : Prop :=
  match u with
  | UCount w | UNode w | UComp w => n_arg N w
  | UDist a b | UEq a b => n_arg N a /\ n_arg N b
  | UPref p a b => n_arg N p /\ n_arg N a /\ n_arg N b
  end.
(* Distance and equality may be named without regard to the order. *)
Definition same_use (u v : use) : Prop :=
  u = v \/ match u, v with
           | UDist a b, UDist c d | UEq a b, UEq c d => a = d /\ b = c
           | _, _ => False
           end.
Definition apart_names (N : naming) : Prop :=
  forall u v, use_ok N u -> use_ok N v -> use_name N u = use_name N v -> same_use u v.

(* A component uses the functions of N.  LEH of constant, variable, constant is
   left out: it names its counter after the wrong constant (see C39). *)
Definition obeys (N : naming) (a : atom) : Prop :=
  match a with
  | LelVV _ _ g | LelVC _ _ g | LelCV _ _ g => forall x, app1 g x = n_count N x
  | NodeV _ g => forall x, app1 g x = n_node N x
  | AllV _ _ g => forall x, app1 g x = n_comp N x
  | HeprVV _ _ _ g | HeprVC _ _ _ g | HeprCV _ _ _ g => forall x y z, app3 g x y z = n_pref N x y z
  | LehVVV _ _ _ g h | LehVVC _ _ _ g h | LehVCV _ _ _ g h =>
      (forall x y, app2 g x y = n_dist N x y) /\ (forall x y, app2 h x y = n_eq N x y)
  | LehCVV _ _ _ g | LehVCC _ _ _ g | LehCCV _ _ _ g => forall x y, app2 g x y = n_dist N x y
  | LehCVC _ _ _ _ => False
  | _ => True
  end.
Definition prefs_in (a : atom) : list (list Z) :=
  match a with HeprVV _ _ p _ | HeprVC _ _ p _ | HeprCV _ _ p _ => [p] | _ => [] end.

(* Names a variable of q is given inside the quantifiers of q. *)
Definition inside (q : query) (v : string) (w : string) : Prop :=
  In v (all_vars q) /\ exists p, Forall (fun k => In (fst k) (all_ids q)) p /\ w = pname v p.

Record tidy (N : naming) (d : nat) (q : query) : Prop := {
  td_apart : apart_names N;
  td_atoms : Forall (obeys N) (atoms_of q);
  td_prefs : forall p p', In p (flat_map prefs_in (atoms_of q)) -> In p' (flat_map prefs_in (atoms_of q)) ->
     n_arg N (prefVar p) /\ (prefVar p = prefVar p' -> p = p');
  td_consts : forall c, valid_inst d (cVal c) -> n_arg N (AsString c);
  td_vars : forall v w, inside q v w -> n_arg N w /\ (forall u, use_ok N u -> w <> use_name N u) /\
     (forall c, valid_inst d (cVal c) -> w <> AsString c)
}.

(* ---- formulas ---- *)

Fixpoint fatoms (p : form) : list atom :=
  match p with
  | FTrue => []
  | FAtom a => [a]
  | FNot p | FWith _ p => fatoms p
  | FAnd p q | FOr p q => fatoms p ++ fatoms q
  end.
Lemma auxs_fatoms : forall p, auxs p = flat_map aux_of (fatoms p).
Proof.
  induction p as [|a|p IH|p IHp q IHq|p IHp q IHq|w p IH]; simpl; auto.
  - now rewrite app_nil_r.
  - now rewrite flat_map_app, IHp, IHq.
  - now rewrite flat_map_app, IHp, IHq.
Qed.
Lemma lexical_fatoms : forall p G a v, lexical G p -> In a (fatoms p) -> In v (vars_of a) -> In v G \/ In v (declared p).
Proof.
  induction p as [|b|p IH|p IHp q IHq|p IHp q IHq|w p IH]; intros G a v HL Ha Hv; cbn [lexical fatoms declared] in *.
  - destruct Ha.
  - destruct Ha as [->|[]]. auto.
  - eauto.
  - destruct HL as [L1 L2]. rewrite in_app_iff in *. destruct Ha as [Ha|Ha]; [destruct (IHp G a v L1 Ha Hv)|destruct (IHq G a v L2 Ha Hv)]; auto.
  - destruct HL as [L1 L2]. rewrite in_app_iff in *. destruct Ha as [Ha|Ha]; [destruct (IHp G a v L1 Ha Hv)|destruct (IHq G a v L2 Ha Hv)]; auto.
  - destruct (IH _ a v HL Ha Hv) as [[<-|X]|X]; simpl; auto.
Qed.
Lemma good_fatoms : forall m t p a, atoms_good m t p -> In a (fatoms p) -> atom_ok (Dim m) a.
Proof.
  induction p as [|b|p IH|p IHp q IHq|p IHp q IHq|w p IH]; intros a HG Ha; cbn [atoms_good fatoms] in *; auto.
  - destruct Ha.
  - destruct Ha as [->|[]]. tauto.
  - rewrite in_app_iff in Ha. destruct HG, Ha; auto.
  - rewrite in_app_iff in Ha. destruct HG, Ha; auto.
Qed.

Definition opname (o : op) : string := match o with OV w => w | OC e => AsString (mkQConst "" e) end.
Lemma opname_c : forall c, AsString c = opname (OC (cVal c)). Proof. intros [i v]. reflexivity. Qed.
Definition stands (u : use) (k : key) : Prop :=
  match u, k with
  | UCount w, KCount w' | UNode w, KReachN w' | UComp w, KReachA w' => w = w'
  | UDist a b, KHD o1 o2 => a = opname o1 /\ b = opname o2
  | UEq a b, KEF w1 w2 => a = w1 /\ b = w2
  | UPref s a b, KPref p o1 o2 => s = prefVar p /\ a = opname o1 /\ b = opname o2
  | _, _ => False
  end.
(* what a key is about *)
Definition key_over (D : string -> Prop) (d : nat) (L : list (list Z)) (k : key) : Prop :=
  let ok o := match o with OV w => D w | OC e => valid_inst d e end in
  match k with
  | KReachN w | KReachA w | KCount w => D w
  | KHD o1 o2 => ok o1 /\ ok o2
  | KEF w1 w2 => D w1 /\ D w2
  | KPref p o1 o2 => In p L /\ ok o1 /\ ok o2
  end.

Lemma aux_use : forall N d (D : string -> Prop) L a n k, obeys N a -> (forall v, In v (vars_of a) -> D v) ->
  Forall (fun c => valid_inst d (cVal c)) (consts_of a) -> incl (prefs_in a) L -> In (n, k) (aux_of a) ->
  exists u, n = use_name N u /\ stands u k /\ key_over D d L k.
Proof.
  intros N d D L a n k O HD HC HL H.
  destruct a; cbn [aux_of obeys vars_of consts_of prefs_in] in *; try contradiction; try (destruct O as [O1 O2]);
    repeat match goal with X : Forall _ (_ :: _) |- _ => apply Forall_inv in X as ?; apply Forall_inv_tail in X end;
    repeat match goal with X : In (n, k) (_ :: _) |- _ => destruct X as [X|X]; [injection X as <- <-|] end; try contradiction;
    rewrite ?O, ?O1, ?O2, ?opname_c;
    [..|idtac];
    first
    [ eexists (UCount _); split; [reflexivity|]; split; [reflexivity|]; cbn [key_over]; apply HD; simpl; auto; fail
    | eexists (UNode _); split; [reflexivity|]; split; [reflexivity|]; cbn [key_over]; apply HD; simpl; auto; fail
    | eexists (UComp _); split; [reflexivity|]; split; [reflexivity|]; cbn [key_over]; apply HD; simpl; auto; fail
    | eexists (UEq _ _); split; [reflexivity|]; split; [split; reflexivity|]; cbn [key_over]; split; apply HD; simpl; auto; fail
    | eexists (UDist _ _); split; [reflexivity|]; split; [split; reflexivity|]; cbn [key_over]; split; auto; apply HD; simpl; auto; fail
    | eexists (UPref _ _ _); split; [reflexivity|]; split; [repeat split; reflexivity|]; cbn [key_over]; split; [apply HL; simpl; auto|split; auto; apply HD; simpl; auto]; fail
    | idtac ].
Qed.

Lemma cnt_ext : forall b b' n, (forall i, b i = b' i) -> cnt b n = cnt b' n.
Proof. intros b b' n H. induction n as [|n IH]; simpl; auto. now rewrite IH, H. Qed.

Lemma same_swap : forall t o1 o2, same_key t (KHD o1 o2) (KHD o2 o1).
Proof.
  intros t o1 o2 E i x. cbn [keyval]. f_equal. apply cnt_ext. intros j. unfold bit_ne. now rewrite Z.eqb_sym.
Qed.
Lemma same_refl : forall t k, same_key t k k. Proof. intros t k E i x. reflexivity. Qed.

Theorem tidy_form : forall N d t p L,
  apart_names N -> Forall (obeys N) (fatoms p) -> lexical [] p ->
  (forall a, In a (fatoms p) -> atom_ok d a) ->
  (forall a, In a (fatoms p) -> incl (prefs_in a) L) ->
  (forall p p', In p L -> In p' L -> n_arg N (prefVar p) /\ (prefVar p = prefVar p' -> p = p')) ->
  (forall c, valid_inst d (cVal c) -> n_arg N (AsString c)) ->
  (forall w, In w (declared p) -> n_arg N w /\ (forall u, use_ok N u -> w <> use_name N u) /\ (forall c, valid_inst d (cVal c) -> w <> AsString c)) ->
  clean t p.
Proof.
  intros N d t p L HN HO HL HG HI HP HC HD.
  set (D := fun w => In w (declared p)).
  assert (X : forall n k, In (n, k) (auxs p) -> exists u, n = use_name N u /\ stands u k /\ key_over D d L k).
  { intros n k H. rewrite auxs_fatoms in H. apply in_flat_map in H as (a & Ha & H).
    apply (aux_use N d D L a n k); auto.
    - rewrite Forall_forall in HO. auto.
    - intros v Hv. destruct (lexical_fatoms p [] a v HL Ha Hv) as [[]|Y]. exact Y.
    - apply (HG a Ha). }
  assert (OI : forall o o', (match o with OV w => D w | OC e => valid_inst d e end) -> (match o' with OV w => D w | OC e => valid_inst d e end) ->
            opname o = opname o' -> o = o').
  { intros [w|e] [w'|e'] A B H; cbn [opname] in H.
    - congruence.
    - exfalso. destruct (HD w A) as (_ & _ & Z). apply (Z (mkQConst "" e')); auto.
    - exfalso. destruct (HD w' B) as (_ & _ & Z). apply (Z (mkQConst "" e)); auto.
    - f_equal. apply (C40_as_string_injective (mkQConst "" e) (mkQConst "" e')) in H; auto; [apply A|apply B]. }
  assert (OA : forall o, (match o with OV w => D w | OC e => valid_inst d e end) -> n_arg N (opname o)).
  { intros [w|e] A; cbn [opname]; [apply (HD w A)|]. apply HC. exact A. }
  assert (OK : forall u k, stands u k -> key_over D d L k -> use_ok N u).
  { intros u k S K. destruct u, k; cbn [stands] in S; try contradiction; cbn [key_over use_ok] in *.
    - subst. apply (OA (OV _)). exact K.
    - subst. apply (OA (OV _)). exact K.
    - subst. apply (OA (OV _)). exact K.
    - destruct S as [-> ->], K as [K1 K2]. split; apply OA; auto.
    - destruct S as [-> ->], K as [K1 K2]. split; apply (OA (OV _)); auto.
    - destruct S as (-> & -> & ->), K as (K0 & K1 & K2). split; [apply (HP _ _ K0 K0)|]. split; apply OA; auto. }
  split.
  - intros n k k' H H'. apply X in H as (u & E & S & K), H' as (u' & E' & S' & K').
    assert (SU : same_use u u') by (apply HN; [eapply OK; eauto|eapply OK; eauto|congruence]).
    clear E E'. destruct u, k; cbn [stands] in S; try contradiction; destruct u', k'; cbn [stands] in S'; try contradiction;
      destruct SU as [SU|SU]; try discriminate; try contradiction; try (injection SU as SU1); cbn [key_over] in *.
    + subst. apply same_refl.
    + subst. apply same_refl.
    + subst. apply same_refl.
    + destruct S as [-> ->], S' as [-> ->], K as [K1 K2], K' as [K3 K4]. apply OI in SU1, H; auto. subst. apply same_refl.
    + destruct S as [-> ->], S' as [-> ->], K as [K1 K2], K' as [K3 K4], SU as [Q1 Q2]. apply OI in Q1, Q2; auto. subst. apply same_swap.
    + destruct S as [-> ->], S' as [-> ->]. subst. apply same_refl.
    + destruct S as [-> ->], S' as [-> ->], SU as [-> ->]. intros E i x. cbn [keyval]. apply Z.eqb_sym.
    + destruct S as (-> & -> & ->), S' as (-> & -> & ->), K as (K0 & K1 & K2), K' as (K3 & K4 & K5).
      apply (HP _ _ K0 K3) in SU1. apply OI in H, H0; auto. subst. apply same_refl.
  - intros n k H Hn. apply X in H as (u & -> & S & K). destruct (HD _ Hn) as (_ & Y & _). apply (Y u); auto. eapply OK; eauto.
Qed.

(* ---- from queries to formulas ---- *)

Lemma obeys_map : forall N fv fc a, obeys N a -> obeys N (map_atom fv fc a).
Proof. intros N fv fc a H. destruct a; exact H. Qed.
Lemma prefs_map : forall fv fc a, prefs_in (map_atom fv fc a) = prefs_in a.
Proof. intros fv fc a. destruct a; reflexivity. Qed.

(* The components of the written out query are those of the query, resolved. *)
Lemma elab_fatoms : forall insts q s a, In a (fatoms (fst (elab insts q s))) ->
  exists b fv fc, In b (atoms_of q) /\ a = map_atom fv fc b.
Proof.
  intros insts. induction q as [|b|q IH|q1 IH1 q2 IH2|q1 IH1 q2 IH2|v q IH|c q IH]; intros s a H; cbn [elab atoms_of] in *.
  - destruct H.
  - destruct H as [<-|[]]. exists b, (sname s), (sconst s). simpl; auto.
  - specialize (IH s a). destruct (elab insts q s). auto.
  - specialize (IH1 s a). destruct (elab insts q1 s) as [p1 s1]. specialize (IH2 s1 a). destruct (elab insts q2 s1) as [p2 s2].
    cbn [fst fatoms] in *. apply in_app_or in H as [H|H]; [apply IH1 in H|apply IH2 in H]; destruct H as (b & fv & fc & Hb & E); exists b, fv, fc; split; auto; apply in_or_app; auto.
  - specialize (IH1 s a). destruct (elab insts q1 s) as [p1 s1]. specialize (IH2 s1 a). destruct (elab insts q2 s1) as [p2 s2].
    cbn [fst fatoms] in *. apply in_app_or in H as [H|H]; [apply IH1 in H|apply IH2 in H]; destruct H as (b & fv & fc & Hb & E); exists b, fv, fc; split; auto; apply in_or_app; auto.
  - specialize (IH (AddVar s v) a). destruct (elab insts q (AddVar s v)). auto.
  - assert (X : forall l i acc s, In a (fatoms (fst (elab_all (elab insts q) l i acc s))) -> In a (fatoms acc) \/ exists b fv fc, In b (atoms_of q) /\ a = map_atom fv fc b).
    { clear H s. intros l. induction l as [|e l IHl]; intros i acc s H; cbn [elab_all] in H; auto.
      specialize (IH (set_scope s i e) a). destruct (elab insts q (set_scope s i e)) as [p s'].
      apply IHl in H as [H|H]; auto. cbn [fatoms] in H. apply in_app_or in H as [H|H]; auto. }
    specialize (X insts 0 FTrue (AddScope s (cID c))). destruct (elab_all _ _ _ _ _) as [p s1]. apply X in H as [[]|H]. exact H.
Qed.

Lemma owned_inside : forall Q q p v p', incl (all_vars q) (all_vars Q) -> incl (all_ids q) (all_ids Q) ->
  Forall (fun k => In (fst k) (all_ids Q)) p -> owned p q v p' ->
  In v (all_vars Q) /\ Forall (fun k => In (fst k) (all_ids Q)) p'.
Proof.
  intros Q. induction q as [|a|q IH|q1 IH1 q2 IH2|q1 IH1 q2 IH2|v q IH|c q IH]; intros p w p' Hv Hi Hp H; cbn [owned all_vars all_ids] in *; try contradiction.
  - eauto.
  - apply incl_app_inv in Hv as [], Hi as []. destruct H; eauto.
  - apply incl_app_inv in Hv as [], Hi as []. destruct H; eauto.
  - apply incl_cons_inv in Hv as [_ Hv]. eauto.
  - apply incl_cons_inv in Hi as [Hi1 Hi2]. destruct H as [i H]. cbv zeta in H.
    assert (HP : Forall (fun k => In (fst k) (all_ids Q)) (p ++ [(cID c, Z.of_nat i)])) by (apply Forall_app; split; auto).
    destruct H as [[H ->]|H]; [|eauto]. split; auto. apply Hv, block_all, H.
Qed.

Theorem tidy_clean : forall N m t q, scoped (block_vars q) [] [] q -> components_ok m t [] q ->
  tidy N (Dim m) q -> clean t (ground m t q).
Proof.
  intros N m t q S W4 [T1 T2 T3 T4 T5].
  destruct (ground_spec m t q S) as (_ & _ & _ & G4 & G5 & G6). fold (ground m t q) in *. cbn [map] in G5.
  apply (tidy_form N (Dim m) t (ground m t q) (flat_map prefs_in (atoms_of q))); auto.
  - rewrite Forall_forall in *. intros a Ha. apply elab_fatoms in Ha as (b & fv & fc & Hb & ->). apply obeys_map; auto.
  - intros a Ha. eapply good_fatoms; eauto.
  - intros a Ha. apply elab_fatoms in Ha as (b & fv & fc & Hb & ->). rewrite prefs_map. intros p Hp. apply in_flat_map. eauto.
  - intros w Hw. destruct (G6 w Hw) as (v & p' & -> & [[Hv ->]|Ho]).
    + apply (T5 v). split; [now apply block_all|]. exists []. auto.
    + destruct (owned_inside q q [] v p' (incl_refl _) (incl_refl _) (Forall_nil _) Ho) as [A B].
      apply (T5 v). split; auto. exists p'. auto.
Qed.

(* ---- the generators of the test helpers ---- *)

Definition rs : ascii := Ascii.ascii_of_nat 30.

(* query/internal/test/auxvar.go:9-47; Go compares strings byte by byte *)
Definition VarGenBotCount (v : string) : string := sjoin rs ["botc"; v].
Definition VarGenNodeReach (v : string) : string := sjoin rs ["reach"; v].
Definition VarGenHammingDistance (v1 v2 : string) : string :=
  if String.ltb v1 v2 then sjoin rs ["hdist"; v1; v2] else sjoin rs ["hdist"; v2; v1].
Definition VarGenEqualFeat (v1 v2 : string) : string :=
  if String.ltb v1 v2 then sjoin rs ["eqf"; v1; v2] else sjoin rs ["eqf"; v2; v1].
Definition VarGenFeaturePreference (p v1 v2 : string) : string := sjoin rs ["fp"; p; v1; v2].

(* Node and AllComp need functions of their own: the other one gets [other]. *)
Definition other_reach (v : string) : string := sjoin rs ["other"; v].
Definition no_rs (s : string) : Prop := no_char rs s = true.
Definition rs_naming (node comp : string -> string) : naming :=
  mkNaming no_rs VarGenBotCount node comp VarGenHammingDistance VarGenEqualFeat VarGenFeaturePreference.
Definition comp_naming : naming := rs_naming other_reach VarGenNodeReach.
Definition node_naming : naming := rs_naming VarGenNodeReach other_reach.

Lemma sjoin_inj : forall l l', l <> [] -> l' <> [] -> forallb (no_char rs) l = true -> forallb (no_char rs) l' = true ->
  sjoin rs l = sjoin rs l' -> l = l'.
Proof. intros l l' N N' H H' E. rewrite <- (split_join rs l), <- (split_join rs l'), E by auto. reflexivity. Qed.

Lemma ite_join : forall (b : bool) l l', (if b then sjoin rs l else sjoin rs l') = sjoin rs (if b then l else l').
Proof. intros []; reflexivity. Qed.

Lemma rs_apart : forall n c, (forall v, n v = VarGenNodeReach v) /\ (forall v, c v = other_reach v) \/
  (forall v, n v = other_reach v) /\ (forall v, c v = VarGenNodeReach v) -> apart_names (rs_naming n c).
Proof.
  intros n c Hnc u v Hu Hv E.
  assert (Hb0 : exists b : bool, (forall v, n v = sjoin rs [(if b then "reach" else "other"); v]) /\ (forall v, c v = sjoin rs [(if b then "other" else "reach"); v])).
  { destruct Hnc as [H|H]; [exists true|exists false]; exact H. }
  clear Hnc. destruct Hb0 as (b & Hn & Hc).
  set (f := fun u => match u with
     | UCount w => ["botc"; w]
     | UNode w => [(if b then "reach" else "other"); w]
     | UComp w => [(if b then "other" else "reach"); w]
     | UDist x y => if String.ltb x y then ["hdist"; x; y] else ["hdist"; y; x]
     | UEq x y => if String.ltb x y then ["eqf"; x; y] else ["eqf"; y; x]
     | UPref p x y => ["fp"; p; x; y] end).
  assert (Hb : forall u, use_ok (rs_naming n c) u -> f u <> [] /\ forallb (no_char rs) (f u) = true /\ use_name (rs_naming n c) u = sjoin rs (f u)).
  { unfold f. clear - Hn Hc. intros [w|w|w|x y|x y|p x y] H; cbn [use_ok use_name rs_naming n_arg n_count n_node n_comp n_dist n_eq n_pref] in *; unfold no_rs in H.
    - split; [discriminate|]. simpl. rewrite H. auto.
    - split; [discriminate|]. split; [|apply Hn]. destruct b; simpl; now rewrite H.
    - split; [discriminate|]. split; [|apply Hc]. destruct b; simpl; now rewrite H.
    - destruct H as [Ha Hb]. unfold VarGenHammingDistance. rewrite ite_join. destruct (String.ltb x y); (split; [discriminate|]; split; [simpl; now rewrite Ha, Hb|reflexivity]).
    - destruct H as [Ha Hb]. unfold VarGenEqualFeat. rewrite ite_join. destruct (String.ltb x y); (split; [discriminate|]; split; [simpl; now rewrite Ha, Hb|reflexivity]).
    - destruct H as (Hp & Ha & Hb). split; [discriminate|]. simpl. rewrite Hp, Ha, Hb. auto. }
  destruct (Hb u Hu) as (U1 & U2 & U3), (Hb v Hv) as (V1 & V2 & V3). rewrite U3, V3 in E.
  apply sjoin_inj in E; auto. clear - E. unfold f, same_use in *. destruct b;
  destruct u, v; repeat match type of E with context [if ?b then _ else _] => destruct b eqn:? end; try discriminate; injection E; intros; subst; auto.
Qed.

(* Variable names that are neither generated nor the text of a constant. *)
Definition var_name (v : string) : Prop :=
  no_rs v /\ match v with EmptyString => False | String a _ => ~ In a ["_"; "0"; "1"]%char end.

Lemma no_char_app : forall c a b, no_char c (a ++ b)%string = no_char c a && no_char c b.
Proof. intros c a b. unfold no_char. induction a as [|x a IH]; simpl; auto. now rewrite IH, andb_assoc. Qed.
Lemma no_char_join : forall c l, c <> us -> forallb (no_char c) l = true -> no_char c (sjoin us l) = true.
Proof.
  intros c l N. induction l as [|s l IH]; intros H; auto. simpl in H. apply andb_true_iff in H as [H1 H2].
  destruct l as [|s' l]; [exact H1|]. change (sjoin us (s :: s' :: l)) with (append s (String us (sjoin us (s' :: l)))).
  rewrite no_char_app, H1. specialize (IH H2). remember (sjoin us (s' :: l)) as r. unfold no_char in *. cbn [all_chars andb]. rewrite IH.
  destruct (Ascii.eqb_spec us c); [congruence|reflexivity].
Qed.
Lemma itoa_no_rs : forall z, no_char rs (itoa z) = true.
Proof. intros. eapply no_char_weaken; [apply itoa_chars|reflexivity]. Qed.
Lemma prefVar_no_rs : forall p, no_rs (prefVar p).
Proof.
  intros p. unfold prefVar, no_rs. assert (X : forall l s, no_char rs s = true -> no_char rs (fold_left (fun s i => (s ++ itoa i)%string) l s) = true).
  { induction l as [|z l IH]; intros s H; simpl; auto. apply IH. now rewrite no_char_app, H, itoa_no_rs. }
  now apply X.
Qed.
Lemma AsString_cons : forall c x l, cVal c = x :: l -> AsString c = append (featString x) (AsString (mkQConst "" l)).
Proof.
  intros c x l E. unfold AsString. rewrite E. cbn [cVal fold_left append].
  assert (F : forall l s, fold_left (fun s ft => (s ++ featString ft)%string) l s = append s (fold_left (fun s ft => (s ++ featString ft)%string) l "")).
  { clear. induction l as [|x l IH]; intros s; simpl; [now rewrite sapp_nil_r|].
    rewrite (IH (append s (featString x))), (IH (featString x)). now rewrite sapp_assoc. }
  apply F.
Qed.
Lemma AsString_no_rs : forall l i, Forall valid_feat l -> no_rs (AsString (mkQConst i l)).
Proof.
  unfold no_rs. induction l as [|x l IH]; intros i H; [reflexivity|]. rewrite (AsString_cons _ x l) by reflexivity.
  rewrite no_char_app. inversion H as [|y z Hx Hl]; subst. rewrite IH by auto. destruct Hx as [->|[->| ->]]; reflexivity.
Qed.

Theorem rs_tidy : forall N d q, N = comp_naming \/ N = node_naming -> (0 < d)%nat -> Forall (obeys N) (atoms_of q) ->
  (forall p p', In p (flat_map prefs_in (atoms_of q)) -> In p' (flat_map prefs_in (atoms_of q)) -> prefVar p = prefVar p' -> p = p') ->
  Forall var_name (all_vars q) -> Forall no_rs (all_ids q) -> tidy N d q.
Proof.
  intros N d q HN Hd HO HP HV HI.
  assert (NA : n_arg N = no_rs) by (destruct HN as [-> | ->]; reflexivity).
  assert (AP : apart_names N).
  { destruct HN as [-> | ->]; apply rs_apart; [right|left]; split; reflexivity. }
  assert (US : forall u, use_ok N u -> no_char rs (use_name N u) = false).
  { clear - HN. intros u H. destruct HN as [-> | ->]; destruct u; cbn; unfold VarGenHammingDistance, VarGenEqualFeat;
      try (destruct (String.ltb _ _)); reflexivity. }
  constructor; auto.
  - intros p p' Hp Hp'. rewrite NA. split; [apply prefVar_no_rs|]. auto.
  - intros [i e] [_ H]. rewrite NA. now apply AsString_no_rs.
  - intros v w (Hv & p & Hp & ->). rewrite Forall_forall in HV. specialize (HV v Hv) as [V1 V2].
    assert (W : no_rs (pname v p)).
    { unfold pname. apply no_char_join; [discriminate|]. simpl. rewrite V1. simpl.
      rewrite Forall_forall in HI. induction Hp as [|[a z] p Ha Hp IH]; auto. simpl. rewrite (HI a Ha), itoa_no_rs. exact IH. }
    rewrite NA. split; auto. split.
    + intros u Hu E. rewrite E in W. unfold no_rs in W. rewrite US in W; auto. discriminate.
    + intros c Hc E. destruct v as [|a v]; [contradiction|]. assert (X : exists s, pname (String a v) p = String a s).
      { unfold pname. simpl. destruct (path_fields p); eexists; reflexivity. }
      destruct X as [s X]. rewrite X in E. destruct c as [i [|x l]]; destruct Hc as [H1 H2]; cbn [cVal] in *; [simpl in H1; lia|].
      rewrite (AsString_cons _ x l) in E by reflexivity. inversion H2 as [|y z Hx _]; subst. apply V2.
      destruct Hx as [->|[->| ->]]; injection E as -> _; simpl; auto.
Qed.
