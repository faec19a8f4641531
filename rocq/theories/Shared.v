(* Queries encoded one after the other in one context. *)
From Verif Require Import GoBase GoLemmas Cnf Query Walk Atoms Logop Spec Meaning Truth CnfSem QueryLemmas Sym AtomBase AtomSimple WalkLemmas AtomMain Form Master Block Ground Sat AtomCnf Evolve Outcome Names Answer.
Local Open Scope string_scope.
Local Open Scope Z_scope.
Local Open Scope list_scope.

(* ---- what the encoding of a formula puts into the variable manager ---- *)

Definition mentioned (p : form) (n : string) : Prop := In n (declared p) \/ In n (map fst (auxs p)).

Lemma negF_vars : forall f vm, vm_vars (snd (negF f vm)) = vm_vars vm.
Proof. intros f vm. unfold negF. cbn [snd]. unfold UpdateTopV. destruct (_ <? _); reflexivity. Qed.
Lemma negF_inv : forall f vm, vm_inv vm -> vm_inv (snd (negF f vm)).
Proof.
  intros f vm I. unfold negF. cbn [snd]. destruct (UpdateTopV vm (TopV (Negate f (Some (vm_topv vm))))) as [b vm'] eqn:E.
  cbn [snd]. now apply (UpdateTopV_spec _ _ _ _ I E).
Qed.

Lemma encF_names : forall m t p G vm f vm', vm_inv vm -> atoms_good m t p -> lexical G p -> encF m p vm = Ok (f, vm') ->
  vm_inv vm' /\ forall u, mapped vm' u -> mapped vm u \/ In (uname u) G \/ mentioned p (uname u).
Proof.
  intros m t. unfold mentioned. induction p as [|a|p IH|p IHp q IHq|p IHp q IHq|w p IH]; intros G vm f vm' I HG HL E; cbn [atoms_good lexical encF declared auxs] in *.
  - injection E as <- <-. auto.
  - destruct HG as [H1 H2]. destruct (atom_good m t vm a H1 H2) as (out & EO & X). rewrite EO in E. cbn [rbind] in E. destruct out as [b|es].
    + injection E as <- <-. auto.
    + injection E as E. pose proof (run_emits_spec es vm I) as (Gr & _). rewrite E in Gr. cbn [snd] in Gr. destruct Gr as (G1 & _ & _ & G4).
      split; auto. intros u Hu. destruct (G4 u Hu) as [Y|Y]; auto. destruct X as (_ & _ & X). apply X in Y as [Y|Y]; auto.
  - destruct (encF m p vm) as [[g vm1]|e| |] eqn:E1; try discriminate. cbn [rbind fst snd] in E. destruct (IH G vm g vm1 I HG HL E1) as [I1 N1].
    assert (vm' = snd (negF g vm1)) as -> by (change vm' with (snd (f, vm')); f_equal; congruence). split; [now apply negF_inv|]. intros u Hu. apply N1. eapply mapped_vars; [|exact Hu]. apply negF_vars.
  - destruct HG as [HG1 HG2], HL as [HL1 HL2]. destruct (encF m p vm) as [[g vm1]|e| |] eqn:E1; try discriminate. cbn [rbind fst snd] in E.
    destruct (encF m q vm1) as [[h vm2]|e| |] eqn:E2; try discriminate. cbn [rbind fst snd] in E. injection E as <- <-.
    destruct (IHp G vm g vm1 I HG1 HL1 E1) as [I1 N1]. destruct (IHq G vm1 h vm2 I1 HG2 HL2 E2) as [I2 N2]. split; auto.
    intros u Hu. rewrite map_app, !in_app_iff. destruct (N2 u Hu) as [Y|Y]; [destruct (N1 u Y); tauto|tauto].
  - destruct HG as [HG1 HG2], HL as [HL1 HL2]. destruct (encF m p vm) as [[g vm1]|e| |] eqn:E1; try discriminate. cbn [rbind fst snd] in E.
    destruct (encF m q vm1) as [[h vm2]|e| |] eqn:E2; try discriminate. cbn [rbind fst snd] in E.
    destruct (IHp G vm g vm1 I HG1 HL1 E1) as [I1 N1]. destruct (IHq G vm1 h vm2 I1 HG2 HL2 E2) as [I2 N2].
    match type of E with Ok (negF ?x ?y) = _ => assert (vm' = snd (negF x y)) as -> by (change vm' with (snd (f, vm')); f_equal; congruence) end.
    split; [now apply negF_inv, negF_inv, negF_inv|]. intros u Hu.
    assert (Hu2 : mapped vm2 u) by (eapply mapped_vars; [|exact Hu]; now rewrite !negF_vars).
    rewrite map_app, !in_app_iff. destruct (N2 u Hu2) as [Y|Y]; [destruct (N1 u Y); tauto|tauto].
  - destruct (encF m p (snd (withF (Dim m) w vm))) as [[g vm1]|e| |] eqn:E1; try discriminate. cbn [rbind fst snd] in E. injection E as <- <-.
    assert (W : vm_inv (snd (withF (Dim m) w vm)) /\ forall u, mapped (snd (withF (Dim m) w vm)) u -> mapped vm u \/ w = uname u).
    { unfold withF. destruct (CNFVarExists vm (w, 0, BOT)); [cbn [snd]; auto|].
      pose proof (run_emits_spec (withvar_emits (Z.of_nat (Dim m)) w) vm I) as (Gr & _). destruct Gr as (G1 & _ & _ & G4). split; auto.
      intros u Hu. destruct (G4 u Hu) as [Y|Y]; auto. apply withvar_triples in Y as (i & x & _ & _ & ->). auto. }
    destruct W as [W1 W2]. destruct (IH (w :: G) _ g vm1 W1 HG HL E1) as [I1 N1]. split; auto.
    intros u Hu. destruct (N1 u Hu) as [Y|[[Y|Y]|Y]]; cbn [In]; try tauto. destruct (W2 u Y); auto.
Qed.

(* ---- names of different queries ---- *)

Definition use_args (u : use) : list string :=
  match u with UCount w | UNode w | UComp w => [w] | UDist a b | UEq a b | UPref _ a b => [a; b] end.

(* Every auxiliary variable is about some variable. *)
Lemma aux_about : forall a n k u, In (n, k) (aux_of a) -> stands u k -> exists w, In w (vars_of a) /\ In w (use_args u).
Proof.
  intros a n k u H S. destruct a; cbn [aux_of] in H; try contradiction;
    repeat match goal with X : In (n, k) (_ :: _) |- _ => destruct X as [X|X]; [injection X as <- <-|] end; try contradiction;
    destruct u; cbn [stands] in S; try contradiction; cbn [use_args vars_of];
    repeat match goal with X : _ /\ _ |- _ => destruct X end; cbn [opname] in *; subst;
    cbn [In];
    first [ match goal with |- exists w, (?v = w \/ _) /\ _ => exists v; tauto end
          | match goal with |- exists w, (_ \/ ?v = w \/ _) /\ _ => exists v; tauto end
          | match goal with |- exists w, (_ \/ _ \/ ?v = w \/ _) /\ _ => exists v; tauto end ].
Qed.

Lemma same_args : forall u v w, same_use u v -> In w (use_args u) -> In w (use_args v).
Proof.
  intros u v w [->|H] Hw; auto. destruct u, v; try contradiction; destruct H as [-> ->]; simpl in *; tauto.
Qed.

Section Names.
Variable m : model.
Variable t : tree.
Variable N : naming.

(* Declared names of the written out query are names of its variables inside
   its quantifiers. *)
Lemma declared_inside : forall q w, wf_query m t q -> In w (declared (ground m t q)) ->
  exists v p, w = pname v p /\ In v (all_vars q) /\ clear_path p /\ inside q v w.
Proof.
  intros q w W Hw. destruct (ground_spec m t q (wf_scoped _ _ _ W)) as (_ & _ & _ & _ & _ & G6). fold (ground m t q) in *.
  destruct (wf_names _ _ _ W) as [W5 W6]. destruct (G6 w Hw) as (v & p & -> & [[Hv ->]|Ho]).
  - exists v, []. split; auto. split; [now apply block_all|]. split; [constructor|]. split; [now apply block_all|]. exists []. auto.
  - destruct (owned_inside q q [] v p (incl_refl _) (incl_refl _) (Forall_nil _) Ho) as [A B]. exists v, p. split; auto. split; auto.
    split; [apply (owned_clear q [] v p); auto; constructor|]. split; auto. exists p. auto.
Qed.

Lemma aux_used : forall q n, wf_query m t q -> tidy N (Dim m) q -> In n (map fst (auxs (ground m t q))) ->
  exists u w, n = use_name N u /\ use_ok N u /\ In w (declared (ground m t q)) /\ In w (use_args u) /\
    forall x, In x (use_args u) -> In x (declared (ground m t q)) \/ exists c, valid_inst (Dim m) (cVal c) /\ x = AsString c.
Proof.
  intros q n W [T1 T2 T3 T4 T5] Hn. destruct (ground_spec m t q (wf_scoped _ _ _ W)) as (_ & _ & _ & G4 & G5 & _). fold (ground m t q) in *. cbn [map] in G5.
  apply in_map_iff in Hn as ([n' k] & <- & Hn). cbn [fst]. rewrite auxs_fatoms in Hn. apply in_flat_map in Hn as (a & Ha & Hn).
  set (D := fun w => In w (declared (ground m t q))).
  assert (HD : forall v, In v (vars_of a) -> D v).
  { intros v Hv. destruct (lexical_fatoms _ [] a v G5 Ha Hv) as [[]|Y]. exact Y. }
  assert (HC : Forall (fun c => valid_inst (Dim m) (cVal c)) (consts_of a)) by apply (good_fatoms m t _ a (G4 (wf_components _ _ _ W)) Ha).
  pose proof Ha as Ha'. apply elab_fatoms in Ha' as (b & fv & fc & Hb & Eb).
  destruct (aux_use N (Dim m) D (flat_map prefs_in (atoms_of q)) a n' k) as (u & E & S & K); auto.
  { rewrite Eb. apply obeys_map. rewrite Forall_forall in T2. auto. }
  { rewrite Eb, prefs_map. intros p Hp. apply in_flat_map. eauto. }
  destruct (aux_about a n' k u Hn S) as (w & Hw & Hu).
  assert (OA : forall o, (match o with OV w => D w | OC e => valid_inst (Dim m) e end) -> n_arg N (opname o) /\
            (In (opname o) (declared (ground m t q)) \/ exists c, valid_inst (Dim m) (cVal c) /\ opname o = AsString c)).
  { intros [x|e] A; cbn [opname].
    - split; auto. destruct (declared_inside q x W A) as (v & p & _ & _ & _ & I). apply (T5 v x I).
    - split; [apply T4; exact A|]. right. exists (mkQConst "" e). auto. }
  exists u, w. split; auto. split; [|split; [apply HD; auto|split; auto]].
  - destruct u, k; cbn [stands] in S; try contradiction; cbn [key_over use_ok] in *.
    + subst. apply (OA (OV _)). exact K.
    + subst. apply (OA (OV _)). exact K.
    + subst. apply (OA (OV _)). exact K.
    + destruct S as [-> ->], K as [K1 K2]. split; apply OA; auto.
    + destruct S as [-> ->], K as [K1 K2]. split; apply (OA (OV _)); auto.
    + destruct S as (-> & -> & ->), K as (K0 & K1 & K2). split; [apply (T3 _ _ K0 K0)|]. split; apply OA; auto.
  - intros x Hx. destruct u, k; cbn [stands] in S; try contradiction; cbn [key_over use_args] in *.
    + subst. destruct Hx as [<-|[]]. apply (OA (OV _)). exact K.
    + subst. destruct Hx as [<-|[]]. apply (OA (OV _)). exact K.
    + subst. destruct Hx as [<-|[]]. apply (OA (OV _)). exact K.
    + destruct S as [-> ->], K as [K1 K2]. destruct Hx as [<-|[<-|[]]]; apply OA; auto.
    + destruct S as [-> ->], K as [K1 K2]. destruct Hx as [<-|[<-|[]]]; apply (OA (OV _)); auto.
    + destruct S as (-> & -> & ->), K as (K0 & K1 & K2). destruct Hx as [<-|[<-|[]]]; apply OA; auto.
Qed.

Lemma pname_var : forall v p v' p', no_sep v -> no_sep v' -> clear_path p -> clear_path p' -> pname v p = pname v' p' -> v = v'.
Proof.
  intros v p v' p' H1 H2 H3 H4 E. unfold pname in E. apply (f_equal (split_on us)) in E.
  rewrite !split_join in E; try discriminate; cbn [forallb]; rewrite ?fields_no_us by auto; unfold no_sep in *; rewrite ?H1, ?H2; auto. congruence.
Qed.

Definition foreign (q q' : query) : Prop := forall v, In v (all_vars q) -> ~ In v (all_vars q').

(* Queries without a common variable have no name in common. *)
Lemma foreign_names : forall q q' n, wf_query m t q -> wf_query m t q' -> tidy N (Dim m) q -> tidy N (Dim m) q' -> foreign q q' ->
  mentioned (ground m t q) n -> ~ mentioned (ground m t q') n.
Proof.
  intros q q' n W W' T T' F.
  assert (DD : forall w, In w (declared (ground m t q)) -> ~ In w (declared (ground m t q'))).
  { intros w H H'. apply declared_inside in H as (v & p & -> & Hv & Hp & _), H' as (v' & p' & E & Hv' & Hp' & _); auto.
    assert (v = v') as ->; [|now apply (F v')]. destruct (wf_names _ _ _ W) as [X _], (wf_names _ _ _ W') as [X' _]. rewrite Forall_forall in X, X'.
    apply (pname_var v p v' p'); auto. }
  assert (DC : forall q w c, wf_query m t q -> tidy N (Dim m) q -> In w (declared (ground m t q)) -> valid_inst (Dim m) (cVal c) -> w <> AsString c).
  { intros q0 w c W0 T0 H V. apply declared_inside in H as (v & p & _ & _ & _ & I); auto. apply (td_vars _ _ _ T0 v w I); auto. }
  intros [H|H] [H'|H'].
  - now apply (DD n).
  - apply aux_used in H' as (u & w & -> & OK & _); auto. apply declared_inside in H as (v & p & _ & _ & _ & I); auto. destruct (td_vars _ _ _ T v _ I) as (_ & X & _). now apply (X u OK).
  - apply aux_used in H as (u & w & -> & OK & _); auto. apply declared_inside in H' as (v & p & _ & _ & _ & I); auto. destruct (td_vars _ _ _ T' v _ I) as (_ & X & _). now apply (X u OK).
  - apply aux_used in H as (u & w & -> & OK & Hw & Ha & _), H' as (u' & w' & E & OK' & _ & _ & A); auto.
    pose proof (td_apart _ _ _ T u u' OK OK' E) as S. destruct (A w (same_args _ _ _ S Ha)) as [X|(c & V & ->)].
    + now apply (DD w).
    + apply (DC q _ c W T Hw V). reflexivity.
Qed.

(* ---- the variable manager after some queries ---- *)

(* Everything in vm was put there for queries of l. *)
Definition made_for (l : list query) (vm : varman) : Prop :=
  forall u, mapped vm u -> exists q, In q l /\ mentioned (ground m t q) (uname u).

Definition fine (q : query) : Prop := (has_all q = true -> is_dtree m t) /\ wf_query m t q /\ tidy N (Dim m) q.

Theorem next_answer : forall l q vm, (0 < Dim m)%nat -> Forall fine l -> fine q -> Forall (fun q' => foreign q' q) l -> vm_inv vm -> made_for l vm ->
  exists f vm', enc q (mkCtx S0 vm m) = (Ok f, mkCtx S0 vm' m) /\ answer m t q vm f vm' /\ made_for (l ++ [q]) vm'.
Proof.
  intros l q vm Hd HL (HA & W & T) HF I HM. rewrite Forall_forall in HL, HF.
  assert (U : unrelated vm (ground m t q)).
  { intros u Hu. destruct (HM u Hu) as (q' & Hq & Hn). destruct (HL q' Hq) as (_ & W' & T').
    pose proof (foreign_names q' q _ W' W T' T (HF q' Hq) Hn) as X. unfold mentioned in X. tauto. }
  assert (C : clean t (ground m t q)) by (eapply tidy_clean; eauto; apply W).
  destruct (query_answer m t q vm Hd HA W C I U) as (f & vm' & E & A). exists f, vm'. split; auto. split; auto.
  destruct (ground_spec m t q (wf_scoped _ _ _ W)) as (_ & _ & _ & G4 & G5 & _). fold (ground m t q) in *. cbn [map] in G5.
  destruct (form_sat m t (ground m t q) vm Hd (G4 (wf_components _ _ _ W)) G5 C I U) as (f1 & vm1 & E1 & _).
  assert (EN : enc q (mkCtx S0 vm m) = (Ok f1, mkCtx (snd (elab (node_instances (Dim m) t) q S0)) vm1 m)).
  { apply (enc_elab m t q (scoped_no_nil _ _ _ _ (wf_scoped _ _ _ W)) HA S0 vm f1 vm1); auto. apply (i_sc _ _ _ _ _ _ _ (inv_S0 [])). }
  rewrite E in EN. injection EN as <- _ <-.
  destruct (encF_names m t _ [] vm f vm' I (G4 (wf_components _ _ _ W)) G5 E1) as [_ X].
  intros u Hu. destruct (X u Hu) as [Y|[[]|Y]].
  - destruct (HM u Y) as (q' & Hq & Hn). exists q'. split; auto. apply in_or_app; auto.
  - exists q. split; auto. apply in_or_app; simpl; auto.
Qed.
End Names.
