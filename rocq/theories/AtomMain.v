(* One lemma for all components: their emissions are exact. *)
From Verif Require Import GoBase Cnf Query Walk Atoms Spec Meaning Sym AtomBase AtomSimple Counter TreeLemmas AtomTree WalkConst WalkLemmas AtomRest QueryLemmas.
Local Open Scope Z_scope.
Local Open Scope list_scope.

(* ---- what the auxiliary variables of a component stand for ---- *)

Inductive op := OV (w : string) | OC (e : inst).
Definition opv (E : env) (o : op) : inst := match o with OV w => E w | OC e => e end.

Inductive key :=
| KReachN (w : string) | KReachA (w : string) | KCount (w : string)
| KHD (o1 o2 : op) | KEF (w1 w2 : string) | KPref (pref : list Z) (o1 o2 : op).

Definition keyval (t : tree) (E : env) (k : key) (i x : Z) : bool :=
  match k with
  | KReachN w => inb x (reach gzN goN (E w) t)
  | KReachA w => inb x (reach gzA goA (E w) t)
  | KCount w => cnt (bit_bot (E w)) (S (Z.to_nat i)) =? x
  | KHD o1 o2 => cnt (bit_ne (opv E o1) (opv E o2)) (S (Z.to_nat i)) =? x
  | KEF w1 w2 => feat (E w1) i =? feat (E w2) i
  | KPref p o1 o2 => prefb (skipn (Z.to_nat x) p) (opv E o1) (opv E o2)
  end.

Definition app1 (g : gen1) (a : string) : string := match g with Some f => f a | None => EmptyString end.
Definition app2 (g : gen2) (a b : string) : string := match g with Some f => f a b | None => EmptyString end.
Definition app3 (g : gen3) (a b c : string) : string := match g with Some f => f a b c | None => EmptyString end.

(* Names given by the generators, with what they stand for. *)
Definition aux_of (a : atom) : list (string * key) :=
  match a with
  | LelVV v1 v2 g => [(app1 g v1, KCount v1); (app1 g v2, KCount v2)]
  | LelVC v _ g | LelCV _ v g => [(app1 g v, KCount v)]
  | NodeV v g => [(app1 g v, KReachN v)]
  | AllV v _ g => [(app1 g v, KReachA v)]
  | HeprVV v1 v2 p g => [(app3 g (prefVar p) v1 v2, KPref p (OV v1) (OV v2))]
  | HeprVC v c p g => [(app3 g (prefVar p) v (AsString c), KPref p (OV v) (OC (cVal c)))]
  | HeprCV c v p g => [(app3 g (prefVar p) (AsString c) v, KPref p (OC (cVal c)) (OV v))]
  | LehVVV v1 v2 v3 g h =>
      [(app2 h v1 v2, KEF v1 v2); (app2 h v1 v3, KEF v1 v3);
       (app2 g v1 v2, KHD (OV v1) (OV v2)); (app2 g v1 v3, KHD (OV v1) (OV v3))]
  | LehVVC v1 v2 c g h | LehVCV v1 c v2 g h =>
      [(app2 h v1 v2, KEF v1 v2); (app2 g v1 v2, KHD (OV v1) (OV v2));
       (app2 g v1 (AsString c), KHD (OV v1) (OC (cVal c)))]
  | LehCVV c v1 v2 g =>
      [(app2 g v1 (AsString c), KHD (OV v1) (OC (cVal c)));
       (app2 g v2 (AsString c), KHD (OV v2) (OC (cVal c)))]
  | LehVCC v c1 c2 g =>
      [(app2 g v (AsString c1), KHD (OV v) (OC (cVal c1)));
       (app2 g v (AsString c2), KHD (OV v) (OC (cVal c2)))]
  | LehCVC c1 v c2 g => [(app2 g v (AsString c2), KHD (OV v) (OC (cVal c1)))]
  | LehCCV c1 c2 v g => [(app2 g v (AsString c1), KHD (OV v) (OC (cVal c1)))]
  | _ => []
  end.

(* ---- names in clauses ---- *)

Definition uname (u : varRep) : string := fst (fst u).
Definition named (P : string -> Prop) (cls : list sclause) : Prop :=
  forall cl l, In cl cls -> In l cl -> P (uname (snd l)).
Definition enamed (P : string -> Prop) (es : list emit) : Prop :=
  forall u, In u (triples es) -> P (uname u).

Lemma named_nil : forall P, named P []. Proof. intros P cl l []. Qed.
Lemma named_app : forall P a b, named P a -> named P b -> named P (a ++ b).
Proof. intros P a b A B cl l H Hl. apply in_app_or in H as [H|H]; eauto. Qed.
Lemma named_flat_map : forall A P (f : A -> list sclause) l, (forall x, In x l -> named P (f x)) -> named P (flat_map f l).
Proof. intros A P f l H cl x Hc Hx. apply in_flat_map in Hc as (y & Hy & Hc). eapply H; eauto. Qed.
Lemma named_map : forall A (P : string -> Prop) (f : A -> sclause) l,
  (forall x y, In x l -> In y (f x) -> P (uname (snd y))) -> named P (map f l).
Proof. intros A P f l H cl x Hc Hx. apply in_map_iff in Hc as (y & <- & Hy). eapply H; eauto. Qed.
Lemma named_concat : forall P l, (forall c, In c l -> named P c) -> named P (concat l).
Proof. intros P l H cl x Hc Hx. apply in_concat in Hc as (c & Hc & Hcl). eapply H; eauto. Qed.
Lemma named_weaken : forall (P Q : string -> Prop) c, (forall s, P s -> Q s) -> named P c -> named Q c.
Proof. intros P Q c H N cl l Hc Hl. eauto. Qed.

Lemma named_vars : forall (P : string -> Prop) cls u, named P cls -> In u (clause_vars cls) -> P (uname u).
Proof.
  intros P cls u N H. unfold clause_vars in H. apply in_map_iff in H as (l & <- & Hl).
  apply in_concat in Hl as (cl & Hc & Hl). eauto.
Qed.

Lemma enamed_nil : forall P, enamed P []. Proof. intros P u []. Qed.
Lemma enamed_cons : forall (P : string -> Prop) e es, (forall u, In u (emit_triples e) -> P (uname u)) -> enamed P es -> enamed P (e :: es).
Proof. intros P e es H He u Hu. unfold triples in Hu. simpl in Hu. apply in_app_or in Hu as [Hu|Hu]; auto. Qed.
Lemma enamed_app : forall P a b, enamed P a -> enamed P b -> enamed P (a ++ b).
Proof. intros P a b A B u Hu. unfold triples in Hu. rewrite flat_map_app in Hu. apply in_app_or in Hu as [Hu|Hu]; auto. Qed.
Lemma enamed_concat : forall P l, (forall c, In c l -> enamed P c) -> enamed P (concat l).
Proof.
  intros P l. induction l as [|c l IH]; intros H; simpl; [apply enamed_nil|].
  apply enamed_app; [apply H; simpl; auto|]. apply IH. intros; apply H; simpl; auto.
Qed.
Lemma enamed_map : forall A (P : string -> Prop) (f : A -> emit) l, (forall x u, In x l -> In u (emit_triples (f x)) -> P (uname u)) -> enamed P (map f l).
Proof.
  intros A P f l. induction l as [|c l IH]; intros H; simpl; [apply enamed_nil|].
  apply enamed_cons; [intros u; apply H; simpl; auto|]. apply IH. intros x u Hx; apply H; simpl; auto.
Qed.

(* finite clause lists *)
Ltac lits_in :=
  repeat match goal with
  | H : In _ (_ :: _) |- _ => destruct H as [<-|H]
  | H : In _ [] |- _ => destruct H
  end.
Ltac finite := let cl := fresh "cl" in let l := fresh "l" in let Hc := fresh "Hc" in let Hl := fresh "Hl" in
  intros cl l Hc Hl; cbv beta in Hc; lits_in; first [solve [auto]|unfold uname, Lp, Ln; simpl; auto 8].

Lemma named_mapi : forall A P (f : Z -> A -> list sclause) l, (forall i x, named P (f i x)) -> named P (concat (mapi f l)).
Proof.
  intros A P f l H. apply named_concat. intros c Hc. apply In_mapi in Hc as (i & a & _ & _ & ->). apply H.
Qed.

Section Names.
Variable P : string -> Prop.
Lemma nm_subs_vv : forall d v1 v2, P v1 -> P v2 -> named P (subs_vv d v1 v2).
Proof. intros. apply named_flat_map. intros i _. finite. Qed.
Lemma nm_subs_vc : forall v c, P v -> named P (subs_vc v c).
Proof. intros. apply named_mapi. intros i x. destruct (x =? ONE); [finite|]. destruct (x =? ZERO); finite. Qed.
Lemma nm_subs_cv : forall v c, P v -> named P (subs_cv c v).
Proof. intros. apply named_mapi. intros i x. destruct (negb (x =? BOT)); finite. Qed.
Lemma nm_full : forall d v, P v -> named P (full_v d v).
Proof. intros. apply named_map. intros x y _ Hy. lits_in. auto. Qed.
Lemma nm_cons_vv : forall d v1 v2, P v1 -> P v2 -> named P (cons_vv d v1 v2).
Proof. intros. apply named_flat_map. intros i _. finite. Qed.
Lemma nm_cons_vc : forall v c, P v -> named P (cons_vc v c).
Proof. intros. apply named_mapi. intros i x. destruct (x =? BOT); [finite|]. destruct (x =? ZERO); finite. Qed.
Lemma nm_excess : forall d cv, P cv -> named P (no_excess d cv).
Proof. intros. apply named_flat_map. intros i _. apply named_map. intros x y _ Hy. lits_in. auto. Qed.
Lemma nm_bot_count : forall d v cv, P v -> P cv -> named P (varBotCountClauses d v cv).
Proof.
  intros. unfold varBotCountClauses. apply named_app; [|apply named_app; [now apply nm_excess|finite]].
  apply named_flat_map. intros i _. unfold count_row. apply named_app; [finite|].
  apply named_flat_map. intros j _. finite.
Qed.
Lemma nm_lel_vv : forall d a b, P a -> P b -> named P (lel_vv_sem d a b).
Proof.
  intros. apply named_map. intros x y _ [<-|Hy]; auto. apply in_map_iff in Hy as (j & <- & _). auto.
Qed.
Lemma nm_lel_vc : forall d a c, P a -> named P (lel_vc_sem d a c).
Proof. intros. apply named_map. intros x y _ Hy. lits_in. auto. Qed.
Lemma nm_lel_cv : forall d a c, P a -> named P (lel_cv_sem d a c).
Proof. intros. apply named_map. intros x y _ Hy. lits_in. auto. Qed.
Lemma nm_isnode_reach : forall v r i n, P v -> P r -> named P (isnode_reach v r i n).
Proof. intros. unfold isnode_reach. destruct (IsLeaf n); finite. Qed.
Lemma nm_hd_count : forall d hd e ne, P hd -> (forall i, P (uname (snd (e i)))) -> (forall i, P (uname (snd (ne i)))) ->
  named P (hd_first hd e ne ++ flat_map (hd_row hd e ne) (zrange 1 d) ++ no_excess d hd).
Proof.
  intros. apply named_app; [|apply named_app; [|now apply nm_excess]].
  - unfold hd_first. finite.
  - apply named_flat_map. intros i _. unfold hd_row. apply named_app; [finite|].
    apply named_flat_map. intros j _. finite.
Qed.
Lemma nm_hd_vc : forall d v c hd, P v -> P hd -> named P (hammingDistVC d v c hd).
Proof. intros. apply nm_hd_count; auto. Qed.
Lemma nm_hd_vv : forall d hd ef, P hd -> P ef -> named P (hammingDistVV d hd ef).
Proof. intros. apply nm_hd_count; auto. Qed.
Lemma nm_ef : forall d v1 v2 ef, P v1 -> P v2 -> P ef -> named P (fullVarEqualClauses d v1 v2 ef).
Proof. intros. apply named_flat_map. intros i _. finite. Qed.
Lemma nm_leh : forall d a b, P a -> P b -> named P (leh_sem d a b).
Proof. intros. apply named_flat_map. intros i _. apply named_map. intros x y _ Hy. lits_in; auto. Qed.

Lemma en_from : forall cls es, named P cls -> enamed P es -> enamed P (EFrom cls :: es).
Proof. intros. apply enamed_cons; auto. intros u. simpl. now apply named_vars. Qed.
Lemma en_sem : forall cls es, named P cls -> enamed P es -> enamed P (ESem cls :: es).
Proof. intros. apply enamed_cons; auto. intros u. simpl. now apply named_vars. Qed.
Lemma en_con : forall cls es, named P cls -> enamed P es -> enamed P (ECons cls :: es).
Proof. intros. apply enamed_cons; auto. intros u. simpl. now apply named_vars. Qed.
Lemma en_alloc : forall l es, (forall u, In u l -> P (uname u)) -> enamed P es -> enamed P (EAlloc l :: es).
Proof. intros. apply enamed_cons; auto. Qed.
Lemma en_map_sem1 : forall cls, named P cls -> enamed P (map (fun cl => ESem [cl]) cls).
Proof.
  intros cls N. apply enamed_map. intros cl u Hc Hu. simpl in Hu. eapply (named_vars P [cl]); eauto.
  intros cl' l [<-|[]] Hl. eauto.
Qed.
End Names.

(* ---- resolving names and constants ---- *)

Definition S0 : scoper := mkScoper [] [].
Definition sname (s : scoper) (v : QVar) : string := scoped_name v (firstn (lvl_of s v) (scopes s)).
Definition sconst (s : scoper) (c : QConst) : QConst := fst (ScopeConst s c).
Definition resolve (s : scoper) (a : atom) : atom := map_atom (sname s) (sconst s) a.

Lemma atom_enc_resolve : forall s vm m vm' a, sc_inv s ->
  atom_enc (mkCtx s vm m) a = atom_enc (mkCtx S0 vm' m) (resolve s a).
Proof.
  intros s vm m vm' a H. destruct a; cbn [resolve map_atom atom_enc cScoper cModel];
    rewrite ?(ScopeVar_ok s) by auto; reflexivity.
Qed.

(* ---- exactness ---- *)

Definition reps (d : nat) (tv : tval) (E : env) (l : list string) : Prop := forall w, In w l -> rep d tv w (E w).
Definition canonical (t : tree) (tv : tval) (E : env) (l : list (string * key)) : Prop :=
  forall n k, In (n, k) l -> forall i x, tv (n, i, x) = keyval t E k i x.

(* out says P about the instances of a's variables *)
Definition exact_as (d : nat) (t : tree) (a : atom) (P : env -> Prop) (out : aout) : Prop :=
  match out with
  | ABool b => forall E, b = true <-> P E
  | AEmit es =>
      (forall tv E, reps d tv E (vars_of a) -> scls_true tv (cons_ es) = true ->
         (scls_true tv (sems es) = true <-> P E)) /\
      (forall tv E, reps d tv E (vars_of a) -> canonical t tv E (aux_of a) -> scls_true tv (cons_ es) = true) /\
      enamed (fun n => In n (vars_of a) \/ In n (map fst (aux_of a))) es
  end.
Definition exact (d : nat) (t : tree) (a : atom) (out : aout) : Prop := exact_as d t a (fun E => holds d t E a) out.

Lemma sems_tail : forall es S, sems (es ++ map (fun cl => ESem [cl]) S) = sems es ++ S.
Proof. intros. rewrite sems_app by apply no_from_map_sem. now rewrite sems_map_sem, flat_map_singleton, map_id. Qed.
Lemma cons_tail : forall es S, cons_ (es ++ map (fun cl => ESem [cl]) S) = cons_ es.
Proof. intros. rewrite cons_app by apply no_from_map_sem. now rewrite cons_map_sem, app_nil_r. Qed.
Lemma sems_from : forall cls, sems [EFrom cls] = cls. Proof. reflexivity. Qed.
Lemma cons_from : forall cls, cons_ [EFrom cls] = []. Proof. reflexivity. Qed.

Lemma exact_from : forall d t a cls,
  (forall tv E, reps d tv E (vars_of a) -> (scls_true tv cls = true <-> holds d t E a)) ->
  named (fun n => In n (vars_of a) \/ In n (map fst (aux_of a))) cls ->
  exact d t a (AEmit [EFrom cls]).
Proof.
  intros d t a cls H N. split; [|split].
  - intros tv E R _. rewrite sems_from. auto.
  - reflexivity.
  - apply en_from; auto. apply enamed_nil.
Qed.

Lemma counts_ext : forall d t cv b b', 0 < d -> (forall i, 0 <= i < d -> b i = b' i) -> counts d t cv b -> counts d t cv b'.
Proof.
  intros d t cv b b' Hd H C i j Hi Hj. rewrite C by auto. f_equal. apply cnt_ext. intros k Hk. apply H. lia.
Qed.

Lemma counts_canon_bot : forall d t tv E n w, canonical t tv E [(n, KCount w)] -> counts d tv n (bit_bot (E w)).
Proof. intros d t tv E n w C i j _ _. now rewrite (C n (KCount w) (or_introl eq_refl)). Qed.
Lemma counts_canon_hd : forall d t tv E n o1 o2, canonical t tv E [(n, KHD o1 o2)] -> counts d tv n (bit_ne (opv E o1) (opv E o2)).
Proof. intros d t tv E n o1 o2 C i j _ _. now rewrite (C n (KHD o1 o2) (or_introl eq_refl)). Qed.
Lemma canon_in : forall t tv E l n k, canonical t tv E l -> In (n, k) l -> canonical t tv E [(n, k)].
Proof. intros t tv E l n k C H n' k' [[= <- <-]|[]]. now apply C. Qed.

Ltac okd H := let A := fresh "Hc" in let B := fresh "Hg" in let C := fresh "Hp" in let D := fresh "Hq" in
  destruct H as (A & B & C & D); cbn [consts_of gens_ok pref_ok quirk_free] in A, B, C, D;
  repeat match goal with F : Forall _ (_ :: _) |- _ => inversion F; subst; clear F | F : Forall _ [] |- _ => clear F end.
Ltac dims_ok := unfold ValidateConstsDim; cbn [validate_from]; change fst with (@fst QConst bool);
  repeat match goal with V : valid_inst ?d (cVal ?c) |- context [(length (cVal ?c) =? ?d)%nat] =>
    replace (length (cVal c) =? d)%nat with true by (symmetry; apply Nat.eqb_eq; apply V) end;
  cbn [guard validate_from].
Ltac sconst0 := change (fun c : QConst => fst (ScopeConst S0 c)) with (fun c : QConst => c).

Lemma ScopeVar0 : forall v, ScopeVar S0 v = Ok v. Proof. reflexivity. Qed.
Lemma ScopeConst0 : forall c, fst (ScopeConst S0 c) = c. Proof. reflexivity. Qed.

Ltac atom_start := cbn [atom_enc cScoper cModel]; rewrite ?ScopeVar0, ?ScopeConst0; cbn [rbind]; dims_ok.

Section Main.
Variable m : model.
Variable t : tree.
Variable vm : varman.
Let d := Dim m.
Let cx := mkCtx S0 vm m.
Definition good (a : atom) : Prop := exists out, atom_enc (mkCtx S0 vm m) a = Ok out /\ exact (Dim m) t a out.

Ltac here := eexists; split; [reflexivity|].
Ltac rp R w := let H := fresh "R" in assert (H := R w); simpl in H; specialize (H ltac:(auto)).

Lemma good_subs_vv : forall v1 v2, good (SubsVV v1 v2).
Proof.
  intros v1 v2. unfold good. atom_start. here. apply exact_from.
  - intros tv E R. simpl. apply subs_vv_ok; apply R; simpl; auto.
  - apply nm_subs_vv; simpl; auto.
Qed.
Lemma good_subs_vc : forall v c, valid_inst (Dim m) (cVal c) -> good (SubsVC v c).
Proof.
  intros v c H. unfold good. atom_start. here. apply exact_from.
  - intros tv E R. simpl. apply subs_vc_ok; auto; apply R; simpl; auto.
  - apply nm_subs_vc; simpl; auto.
Qed.
Lemma good_subs_cv : forall v c, valid_inst (Dim m) (cVal c) -> good (SubsCV c v).
Proof.
  intros v c H. unfold good. atom_start. here. apply exact_from.
  - intros tv E R. simpl. apply subs_cv_ok; auto; apply R; simpl; auto.
  - apply nm_subs_cv; simpl; auto.
Qed.
Lemma good_subs_cc : forall c1 c2, valid_inst (Dim m) (cVal c1) -> valid_inst (Dim m) (cVal c2) -> good (SubsCC c1 c2).
Proof.
  intros c1 c2 H1 H2. unfold good. atom_start. here. intros E. simpl. now apply subs_cc_ok.
Qed.
Lemma good_full_v : forall v, good (FullV v).
Proof.
  intros v. unfold good. atom_start. here. apply exact_from.
  - intros tv E R. simpl. apply full_v_ok; apply R; simpl; auto.
  - apply nm_full; simpl; auto.
Qed.
Lemma good_full_c : forall c, valid_inst (Dim m) (cVal c) -> good (FullC c).
Proof. intros c H. unfold good. atom_start. here. intros E. simpl. apply full_c_ok. apply H. Qed.
Lemma good_cons_vv : forall v1 v2, good (ConsVV v1 v2).
Proof.
  intros v1 v2. unfold good. atom_start. here. apply exact_from.
  - intros tv E R. simpl. apply cons_vv_ok; apply R; simpl; auto.
  - apply nm_cons_vv; simpl; auto.
Qed.
Lemma good_cons_vc : forall v c, valid_inst (Dim m) (cVal c) -> good (ConsVC v c).
Proof.
  intros v c H. unfold good. atom_start. here. apply exact_from.
  - intros tv E R. simpl. apply cons_vc_ok; auto; apply R; simpl; auto.
  - apply nm_cons_vc; simpl; auto.
Qed.
Lemma good_cons_cv : forall v c, valid_inst (Dim m) (cVal c) -> good (ConsCV c v).
Proof.
  intros v c H. unfold good. atom_start. here. apply exact_from.
  - intros tv E R. simpl. rewrite consistent_sym. apply cons_vc_ok; auto; apply R; simpl; auto.
  - apply nm_cons_vc; simpl; auto.
Qed.
Lemma good_cons_cc : forall c1 c2, valid_inst (Dim m) (cVal c1) -> valid_inst (Dim m) (cVal c2) -> good (ConsCC c1 c2).
Proof. intros c1 c2 H1 H2. unfold good. atom_start. here. intros E. simpl. now apply cons_cc_ok. Qed.

(* level *)
Lemma good_lel_vv : forall v1 v2 g, (0 < Dim m)%nat -> g <> None -> good (LelVV v1 v2 g).
Proof.
  intros v1 v2 g Hd Hg. destruct g as [g|]; [|congruence]. unfold good. cbn [atom_enc need]. atom_start. here.
  split; [|split].
  - intros tv E R. rewrite cons_tail, sems_tail. simpl holds. unfold cons_, sems. cbn [fold_left emit_con emit_sem app].
    rewrite scls_true_app, andb_true_iff.
    rewrite (bot_count_last _ _ _ _ (E v1)), (bot_count_last _ _ _ _ (E v2)) by (auto; apply R; simpl; auto).
    intros [C1 C2]. now apply lel_vv_ok.
  - intros tv E R C. rewrite cons_tail. unfold cons_. cbn [fold_left emit_con app].
    rewrite scls_true_app, andb_true_iff.
    rewrite (bot_count_last _ _ _ _ (E v1)), (bot_count_last _ _ _ _ (E v2)) by (auto; apply R; simpl; auto).
    split; eapply counts_canon_bot; eapply canon_in; eauto; simpl; auto.
  - apply enamed_app; [|apply en_map_sem1; apply nm_lel_vv; simpl; auto].
    apply en_con; [apply nm_bot_count; simpl; auto|]. apply en_con; [apply nm_bot_count; simpl; auto|apply enamed_nil].
Qed.
Lemma good_lel_vc : forall v c g, (0 < Dim m)%nat -> valid_inst (Dim m) (cVal c) -> g <> None -> good (LelVC v c g).
Proof.
  intros v c g Hd Hc Hg. destruct g as [g|]; [|congruence]. unfold good. cbn [atom_enc need]. atom_start. here.
  change (ECons ?a :: ?l) with ([ECons a] ++ l).
  split; [|split].
  - intros tv E R. rewrite cons_tail, sems_tail. simpl holds. unfold cons_, sems. cbn [fold_left emit_con emit_sem app].
    rewrite (bot_count_last _ _ _ _ (E v)) by (auto; apply R; simpl; auto).
    intros C1. apply lel_vc_ok; auto. apply Hc.
  - intros tv E R C. rewrite cons_tail. unfold cons_. cbn [fold_left emit_con app].
    rewrite (bot_count_last _ _ _ _ (E v)) by (auto; apply R; simpl; auto).
    eapply counts_canon_bot; eapply canon_in; eauto; simpl; auto.
  - apply enamed_app; [|apply en_map_sem1; apply nm_lel_vc; simpl; auto].
    apply en_con; [apply nm_bot_count; simpl; auto|apply enamed_nil].
Qed.
Lemma good_lel_cv : forall v c g, (0 < Dim m)%nat -> valid_inst (Dim m) (cVal c) -> g <> None -> good (LelCV c v g).
Proof.
  intros v c g Hd Hc Hg. destruct g as [g|]; [|congruence]. unfold good. cbn [atom_enc need]. atom_start. here.
  change (ECons ?a :: ?l) with ([ECons a] ++ l).
  split; [|split].
  - intros tv E R. rewrite cons_tail, sems_tail. simpl holds. unfold cons_, sems. cbn [fold_left emit_con emit_sem app].
    rewrite (bot_count_last _ _ _ _ (E v)) by (auto; apply R; simpl; auto).
    intros C1. apply lel_cv_ok; auto. apply Hc.
  - intros tv E R C. rewrite cons_tail. unfold cons_. cbn [fold_left emit_con app].
    rewrite (bot_count_last _ _ _ _ (E v)) by (auto; apply R; simpl; auto).
    eapply counts_canon_bot; eapply canon_in; eauto; simpl; auto.
  - apply enamed_app; [|apply en_map_sem1; apply nm_lel_cv; simpl; auto].
    apply en_con; [apply nm_bot_count; simpl; auto|apply enamed_nil].
Qed.
Lemma good_lel_cc : forall c1 c2, valid_inst (Dim m) (cVal c1) -> valid_inst (Dim m) (cVal c2) -> good (LelCC c1 c2).
Proof. intros c1 c2 H1 H2. unfold good. atom_start. here. intros E. simpl. apply lel_cc_ok; [apply H1|apply H2]. Qed.

(* nodes *)
Lemma nodes_cons : is_dtree m t -> exists n l, Nodes m = n :: l.
Proof.
  intros DT. destruct (Nodes m) as [|n l] eqn:E; eauto. exfalso. destruct DT as (_ & _ & L & _).
  rewrite E in L. apply laid_out_pos in L. simpl in L. lia.
Qed.

Lemma good_node_v : forall v g, is_dtree m t -> g <> None -> good (NodeV v g).
Proof.
  intros v g DT Hg. destruct g as [g|]; [|congruence]. unfold good. cbn [atom_enc need]. atom_start.
  destruct (nodes_cons DT) as (n0 & l0 & EN). rewrite EN. rewrite <- EN.
  destruct (isnode_fcl_ok m t (dtree_tree m t DT) v (g v)) as (fcl & Ef & Nf & _). rewrite Ef. cbn [rbind]. here.
  split; [|split].
  - intros tv E R C. simpl holds. rewrite (isnode_cons m t (dtree_tree m t DT) tv v (g v) (E v)) in C by (apply R; simpl; auto).
    assert (NF : Forall no_from (concat (mapi (fun i n => if IsLeaf n then [] else [ECons (isnode_reach v (g v) i n)]) (Nodes m)))).
    { apply nf_concat. apply Forall_forall. intros x Hx. apply In_mapi in Hx as (i & n & _ & _ & ->). destruct (IsLeaf n); repeat constructor. }
    rewrite sems_app by auto. unfold sems at 1. cbn [fold_left emit_sem app].
    rewrite sems_concat, map_mapi.
    2:{ apply Forall_forall. intros x Hx. apply In_mapi in Hx as (i & n & _ & _ & ->). destruct (IsLeaf n); repeat constructor. }
    rewrite scls_true_app, andb_true_iff, scls_mapi. rewrite (isnode_sem m t DT tv v (g v) (E v) fcl) by (auto; apply R; simpl; auto).
    split; [tauto|]. intros H; split; auto. intros i n _ _. destruct (IsLeaf n); reflexivity.
  - intros tv E R C. rewrite (isnode_cons m t (dtree_tree m t DT) tv v (g v) (E v)) by (apply R; simpl; auto).
    intros i _. now rewrite (C (g v) (KReachN v) (or_introl eq_refl)).
  - cbn [vars_of aux_of app1]. apply enamed_app.
    + apply en_alloc.
      { intros u Hu. apply in_app_or in Hu as [Hu|Hu].
        - apply in_map_iff in Hu as (i & <- & _). unfold uname; simpl; auto.
        - apply in_concat in Hu as (c & Hc & Hu). apply In_mapi in Hc as (i & n & _ & _ & ->).
          destruct (IsLeaf n); simpl in Hu; [contradiction|]. destruct Hu as [<-|[]]. unfold uname; simpl; auto. }
      apply en_sem; [|apply en_con; [|apply enamed_nil]].
      * intros cl l Hc Hl. destruct (Nf cl Hc l Hl) as [(k & _ & ->)|(i & ->)]; unfold uname; simpl; auto.
      * intros cl l Hc Hl. lits_in. unfold uname; simpl; auto.
    + apply enamed_concat. intros c Hc. apply In_mapi in Hc as (i & n & _ & _ & ->).
      destruct (IsLeaf n); [apply enamed_nil|]. apply en_con; [|apply enamed_nil]. apply nm_isnode_reach; simpl; auto.
Qed.
Lemma good_node_c : forall c, is_dtree m t -> valid_inst (Dim m) (cVal c) -> good (NodeC c).
Proof.
  intros c DT Hc. unfold good. atom_start. destruct (isnode_const_ok m t c DT Hc) as (b & E & B). rewrite E.
  eexists. split; [reflexivity|]. intros E'. exact B.
Qed.
Lemma good_all_v : forall v b g, is_dtree m t -> g <> None -> good (AllV v b g).
Proof.
  intros v b g DT Hg. destruct g as [g|]; [|congruence]. unfold good. cbn [atom_enc need]. atom_start.
  destruct (nodes_cons DT) as (n0 & l0 & EN). rewrite EN. rewrite <- EN. here.
  split; [|split].
  - intros tv E R C. simpl holds. rewrite (allcomp_cons m t (dtree_tree m t DT) tv v (g v) (E v)) in C by (apply R; simpl; auto).
    apply (allcomp_sem m t DT); auto; apply R; simpl; auto.
  - intros tv E R C. rewrite (allcomp_cons m t (dtree_tree m t DT) tv v (g v) (E v)) by (apply R; simpl; auto).
    intros i _. now rewrite (C (g v) (KReachA v) (or_introl eq_refl)).
  - cbn [vars_of aux_of app1]. apply en_con; [intros cl l Hc Hl; lits_in; unfold uname; simpl; auto|].
    apply enamed_concat. intros c Hc. apply In_mapi in Hc as (i & n & _ & _ & ->). unfold allcomp_node.
    destruct (IsLeaf n); [destruct (eqb (nValue n) b)|]; try apply enamed_nil.
    + apply en_sem; [finite|apply enamed_nil].
    + apply en_con; [finite|apply enamed_nil].
Qed.
Lemma good_all_c : forall c b, is_dtree m t -> valid_inst (Dim m) (cVal c) -> good (AllC c b).
Proof.
  intros c b DT Hc. unfold good. atom_start. destruct (allcomp_const_ok m t c b DT Hc) as (r & E & B). rewrite E.
  eexists. split; [reflexivity|]. intros E'. exact B.
Qed.
Lemma good_dfs_v : forall v, is_dtree m t -> good (DfsV v).
Proof.
  intros v DT. unfold good. atom_start. rewrite (leafsAsConsts_ok m t DT). cbn [rbind].
  rewrite (leafs_some m t DT). destruct (leaf_pairs m t DT) as [Lp Sp].
  destruct (dfs_var_loop_ok (Dim m) v _ Lp) as (cls & E & N & B). rewrite E. cbn [rbind]. here. apply exact_from.
  - intros tv E' R. simpl holds. rewrite (B tv (E' v)) by (apply R; simpl; auto). apply Sp. apply R. simpl; auto.
  - intros cl l Hc Hl. destruct (N cl l Hc Hl) as (i & _ & ->). unfold uname; simpl; auto.
Qed.
Lemma good_dfs_c : forall c, is_dtree m t -> valid_inst (Dim m) (cVal c) -> good (DfsC c).
Proof.
  intros c DT Hc. unfold good. atom_start. rewrite (leafsAsConsts_ok m t DT). cbn [rbind].
  rewrite (leafs_some m t DT). destruct (leaf_pairs m t DT) as [Lp Sp].
  destruct (dfs_const_loop_ok (Dim m) c _ (proj1 Hc) Lp) as (b & E & B). rewrite E. cbn [rbind rbool]. here.
  intros E'. simpl holds. rewrite B. now apply Sp.
Qed.

(* preference *)
Lemma valid_pref : forall p, pref_valid (Dim m) p -> validatePref p (Dim m) = None.
Proof. intros p H. now apply validatePref_ok. Qed.

Lemma nm_hepr_idx : forall P (f : Z -> list sclause) idxs, (forall i, named P (f i)) -> enamed P (map (fun i => ECons (f i)) idxs).
Proof. intros P f idxs H. apply enamed_map. intros x u _ Hu. simpl in Hu. eapply named_vars; eauto. Qed.

Lemma good_hepr_vv : forall v1 v2 p g, pref_valid (Dim m) p -> p <> [] -> g <> None -> good (HeprVV v1 v2 p g).
Proof.
  intros v1 v2 p g Hp Hne Hg. destruct g as [g|]; [|congruence]. unfold good. cbn [atom_enc need]. atom_start.
  rewrite (valid_pref p Hp). cbn [guard].
  assert (EP : match p with [] => Panic | _ => Ok (AEmit (hepr_vv v1 v2 (g (prefVar p) v1 v2) p)) end
     = Ok (AEmit (hepr_vv v1 v2 (g (prefVar p) v1 v2) p))) by (destruct p; [congruence|reflexivity]).
  rewrite EP. here. split; [|split].
  - intros tv E R C. rewrite (hepr_vv_cons (Dim m) tv v1 v2 _ p (E v1) (E v2)) in C by (auto; try apply Hp; apply R; simpl; auto).
    rewrite hepr_vv_form, hepr_sems_form. simpl holds. now apply ranks_sem.
  - intros tv E R C. rewrite (hepr_vv_cons (Dim m) tv v1 v2 _ p (E v1) (E v2)) by (auto; try apply Hp; apply R; simpl; auto).
    intros i Hi. rewrite (C _ _ (or_introl eq_refl)). reflexivity.
  - cbn [vars_of aux_of app3]. rewrite hepr_vv_form. apply enamed_app; [|apply enamed_app].
    + apply en_con; [unfold hepr_vv_last; finite|apply enamed_nil].
    + apply nm_hepr_idx. intros i. unfold hepr_vv_step. finite.
    + apply en_sem; [finite|apply enamed_nil].
Qed.
Lemma good_hepr_vc : forall v c p g, valid_inst (Dim m) (cVal c) -> pref_valid (Dim m) p -> p <> [] -> g <> None -> good (HeprVC v c p g).
Proof.
  intros v c p g Hc Hp Hne Hg. destruct g as [g|]; [|congruence]. unfold good. cbn [atom_enc need]. atom_start.
  rewrite (valid_pref p Hp). cbn [guard].
  assert (EP : match p with [] => Panic | _ => Ok (AEmit (hepr_vc v (cVal c) (g (prefVar p) v (AsString c)) p)) end
     = Ok (AEmit (hepr_vc v (cVal c) (g (prefVar p) v (AsString c)) p))) by (destruct p; [congruence|reflexivity]).
  rewrite EP. here. split; [|split].
  - intros tv E R C. rewrite (hepr_vc_cons (Dim m) tv v (cVal c) _ p (E v)) in C by (auto; try apply Hp; apply R; simpl; auto).
    rewrite hepr_vc_form, hepr_sems_form. simpl holds. now apply ranks_sem.
  - intros tv E R C. rewrite (hepr_vc_cons (Dim m) tv v (cVal c) _ p (E v)) by (auto; try apply Hp; apply R; simpl; auto).
    intros i Hi. rewrite (C _ _ (or_introl eq_refl)). reflexivity.
  - cbn [vars_of aux_of app3]. rewrite hepr_vc_form. apply enamed_app; [|apply enamed_app].
    + apply en_con; [unfold hepr_vc_last; destruct (negb _); finite|apply enamed_nil].
    + apply nm_hepr_idx. intros i. unfold hepr_vc_step. destruct (negb _); finite.
    + apply en_sem; [finite|apply enamed_nil].
Qed.
Lemma good_hepr_cv : forall v c p g, valid_inst (Dim m) (cVal c) -> pref_valid (Dim m) p -> p <> [] -> g <> None -> good (HeprCV c v p g).
Proof.
  intros v c p g Hc Hp Hne Hg. destruct g as [g|]; [|congruence]. unfold good. cbn [atom_enc need]. atom_start.
  rewrite (valid_pref p Hp). cbn [guard].
  assert (EP : match p with [] => Panic | _ => Ok (AEmit (hepr_cv (cVal c) v (g (prefVar p) (AsString c) v) p)) end
     = Ok (AEmit (hepr_cv (cVal c) v (g (prefVar p) (AsString c) v) p))) by (destruct p; [congruence|reflexivity]).
  rewrite EP. here. split; [|split].
  - intros tv E R C. rewrite (hepr_cv_cons (Dim m) tv v (cVal c) _ p (E v)) in C by (auto; try apply Hp; apply R; simpl; auto).
    rewrite hepr_cv_form, hepr_sems_form. simpl holds. now apply ranks_sem.
  - intros tv E R C. rewrite (hepr_cv_cons (Dim m) tv v (cVal c) _ p (E v)) by (auto; try apply Hp; apply R; simpl; auto).
    intros i Hi. rewrite (C _ _ (or_introl eq_refl)). reflexivity.
  - cbn [vars_of aux_of app3]. rewrite hepr_cv_form. apply enamed_app; [|apply enamed_app].
    + apply en_con; [unfold hepr_cv_last; destruct (negb _); finite|apply enamed_nil].
    + apply nm_hepr_idx. intros i. unfold hepr_cv_step. destruct (negb _); finite.
    + apply en_sem; [finite|apply enamed_nil].
Qed.
Lemma good_hepr_cc : forall c1 c2 p, valid_inst (Dim m) (cVal c1) -> valid_inst (Dim m) (cVal c2) -> pref_valid (Dim m) p -> good (HeprCC c1 c2 p).
Proof.
  intros c1 c2 p H1 H2 Hp. unfold good. atom_start. rewrite (valid_pref p Hp). cbn [guard]. here.
  intros E. simpl holds. apply hepr_cc_ok.
Qed.

(* distances *)
Lemma hd_full_vv : forall tv E v1 v2 ef hd, (0 < Dim m)%nat -> rep (Dim m) tv v1 (E v1) -> rep (Dim m) tv v2 (E v2) ->
  full (Dim m) (E v1) -> full (Dim m) (E v2) ->
  scls_true tv (fullVarEqualClauses (Z.of_nat (Dim m)) v1 v2 ef) = true ->
  scls_true tv (hammingDistVV (Z.of_nat (Dim m)) hd ef) = true ->
  counts (Z.of_nat (Dim m)) tv hd (bit_ne (E v1) (E v2)).
Proof.
  intros tv E v1 v2 ef hd Hd R1 R2 F1 F2 H1 H2. rewrite (ef_ok _ _ _ _ _ _ _ R1 R2) in H1. rewrite hd_vv_ok in H2 by auto.
  eapply counts_ext; [lia| |exact H2]. intros i Hi. cbv beta. unfold bit_ne. rewrite H1; auto.
Qed.
Lemma hd_canon_vv : forall tv E v1 v2 ef hd, (0 < Dim m)%nat -> rep (Dim m) tv v1 (E v1) -> rep (Dim m) tv v2 (E v2) ->
  canonical t tv E [(ef, KEF v1 v2)] -> canonical t tv E [(hd, KHD (OV v1) (OV v2))] ->
  scls_true tv (fullVarEqualClauses (Z.of_nat (Dim m)) v1 v2 ef) = true /\
  scls_true tv (hammingDistVV (Z.of_nat (Dim m)) hd ef) = true.
Proof.
  intros tv E v1 v2 ef hd Hd R1 R2 C1 C2. rewrite (ef_ok _ _ _ _ _ _ _ R1 R2), hd_vv_ok by auto. split.
  - intros i _ _ _. now rewrite (C1 _ _ (or_introl eq_refl)).
  - eapply counts_ext; [lia| |eapply counts_canon_hd; exact C2]. intros i Hi. cbv beta.
    rewrite (C1 _ _ (or_introl eq_refl)). reflexivity.
Qed.
Lemma hd_canon_vc : forall tv E v c hd, (0 < Dim m)%nat -> rep (Dim m) tv v (E v) -> valid_inst (Dim m) c ->
  canonical t tv E [(hd, KHD (OV v) (OC c))] ->
  scls_true tv (hammingDistVC (Z.of_nat (Dim m)) v c hd) = true.
Proof. intros tv E v c hd Hd R H C. rewrite hd_vc_ok by eauto. exact (counts_canon_hd _ _ _ _ _ _ _ C). Qed.

Lemma isfull_c : forall c, valid_inst (Dim m) (cVal c) -> IsFull c = true <-> full (Dim m) (cVal c).
Proof. intros c H. apply IsFull_ok. apply H. Qed.
Lemma isfull_f : forall c, valid_inst (Dim m) (cVal c) -> IsFull c = false -> ~ full (Dim m) (cVal c).
Proof. intros c H E F. apply isfull_c in F; auto. congruence. Qed.

Ltac getfull c := let F := fresh "F" in
  destruct (IsFull c) eqn:F; cbn [negb orb];
  [apply isfull_c in F; auto|apply isfull_f in F; auto;
   eexists; split; [reflexivity|intros ?E; cbn [holds]; unfold leh; split; [discriminate|tauto]]].
Ltac unemit := rewrite ?cons_tail, ?sems_tail; unfold cons_, sems; cbn [fold_left emit_con emit_sem app]; rewrite ?app_nil_r, <- ?app_assoc.
Ltac hasn := simpl; auto 8.
Ltac can := eapply canon_in; [eassumption|hasn].

Lemma first_feat_pos : forall B n (k : res B), (0 < n)%nat -> first_feat n k = k.
Proof. intros B [|n] k H; [lia|reflexivity]. Qed.
Lemma good_leh_vvv : forall v1 v2 v3 g h, (0 < Dim m)%nat -> g <> None -> h <> None -> good (LehVVV v1 v2 v3 g h).
Proof.
  intros v1 v2 v3 g h Hd Hg Hh. destruct g as [g|]; [|congruence]. destruct h as [h|]; [|congruence].
  unfold good. cbn [atom_enc need]. atom_start. here. split; [|split].
  - intros tv E R. unemit. rewrite !scls_true_app, !andb_true_iff. intros (C1 & C2 & C3 & C4). cbn [holds]. unfold leh.
    assert (R1 : rep (Dim m) tv v1 (E v1)) by (apply R; hasn). assert (R2 : rep (Dim m) tv v2 (E v2)) by (apply R; hasn).
    assert (R3 : rep (Dim m) tv v3 (E v3)) by (apply R; hasn).
    rewrite (full_v_ok _ _ _ _ R1), (full_v_ok _ _ _ _ R2), (full_v_ok _ _ _ _ R3).
    split.
    + intros (F1 & F2 & F3 & G). repeat split; auto.
      rewrite leh_sem_ok in G; [exact G|auto| |]; eapply hd_full_vv; eauto.
    + intros (F1 & F2 & F3 & G). repeat split; auto.
      rewrite leh_sem_ok; [exact G|auto| |]; eapply hd_full_vv; eauto.
  - intros tv E R C. unemit. rewrite !scls_true_app, !andb_true_iff.
    cbn [aux_of app2] in C.
    destruct (hd_canon_vv tv E v1 v2 (h v1 v2) (g v1 v2)); auto; try (apply R; hasn); try can.
    destruct (hd_canon_vv tv E v1 v3 (h v1 v3) (g v1 v3)); auto; try (apply R; hasn); can.
  - cbn [vars_of aux_of app2]. apply enamed_app; [|apply en_map_sem1; apply nm_leh; hasn].
    repeat first [apply en_sem; [apply nm_full; hasn|]|apply en_con; [first [apply nm_ef; hasn|apply nm_hd_vv; hasn]|]]. apply enamed_nil.
Qed.
Lemma good_leh_vvc : forall v1 v2 c g h, (0 < Dim m)%nat -> valid_inst (Dim m) (cVal c) -> g <> None -> h <> None -> good (LehVVC v1 v2 c g h).
Proof.
  intros v1 v2 c g h Hd Hc Hg Hh. destruct g as [g|]; [|congruence]. destruct h as [h|]; [|congruence].
  unfold good. cbn [atom_enc need]. atom_start. getfull c. rewrite first_feat_pos by auto. here. split; [|split].
  - intros tv E R. unemit. rewrite !scls_true_app, !andb_true_iff. intros (C1 & C2 & C3). cbn [holds]. unfold leh.
    assert (R1 : rep (Dim m) tv v1 (E v1)) by (apply R; hasn). assert (R2 : rep (Dim m) tv v2 (E v2)) by (apply R; hasn).
    rewrite (full_v_ok _ _ _ _ R1), (full_v_ok _ _ _ _ R2). rewrite (hd_vc_ok _ _ _ _ _ _ Hd R1 Hc) in C3.
    split.
    + intros (F1 & F2 & G). repeat split; auto.
      rewrite leh_sem_ok in G; [exact G|auto| |exact C3]; eapply hd_full_vv; eauto.
    + intros (F1 & F2 & F3 & G). repeat split; auto.
      rewrite leh_sem_ok; [exact G|auto| |exact C3]; eapply hd_full_vv; eauto.
  - intros tv E R C. unemit. rewrite !scls_true_app, !andb_true_iff.
    cbn [aux_of app2] in C.
    destruct (hd_canon_vv tv E v1 v2 (h v1 v2) (g v1 v2)); auto; try (apply R; hasn); try can.
    repeat split; auto. apply (hd_canon_vc _ E); auto; try (apply R; hasn); can.
  - cbn [vars_of aux_of app2]. apply enamed_app; [|apply en_map_sem1; apply nm_leh; hasn].
    repeat first [apply en_sem; [apply nm_full; hasn|]|apply en_alloc; [intros u; apply named_vars; apply nm_hd_vc; hasn|]|
      apply en_con; [first [apply nm_ef; hasn|apply nm_hd_vv; hasn|apply nm_hd_vc; hasn]|]]. apply enamed_nil.
Qed.
Lemma good_leh_vcv : forall v1 v2 c g h, (0 < Dim m)%nat -> valid_inst (Dim m) (cVal c) -> g <> None -> h <> None -> good (LehVCV v1 c v2 g h).
Proof.
  intros v1 v2 c g h Hd Hc Hg Hh. destruct g as [g|]; [|congruence]. destruct h as [h|]; [|congruence].
  unfold good. cbn [atom_enc need]. atom_start. getfull c. rewrite first_feat_pos by auto. here. split; [|split].
  - intros tv E R. unemit. rewrite !scls_true_app, !andb_true_iff. intros (C1 & C2 & C3). cbn [holds]. unfold leh.
    assert (R1 : rep (Dim m) tv v1 (E v1)) by (apply R; hasn). assert (R2 : rep (Dim m) tv v2 (E v2)) by (apply R; hasn).
    rewrite (full_v_ok _ _ _ _ R1), (full_v_ok _ _ _ _ R2). rewrite (hd_vc_ok _ _ _ _ _ _ Hd R1 Hc) in C3.
    split.
    + intros (F1 & F2 & G). repeat split; auto.
      rewrite leh_sem_ok in G; [exact G|auto|exact C3|]; eapply hd_full_vv; eauto.
    + intros (F1 & F2 & F3 & G). repeat split; auto.
      rewrite leh_sem_ok; [exact G|auto|exact C3|]; eapply hd_full_vv; eauto.
  - intros tv E R C. unemit. rewrite !scls_true_app, !andb_true_iff.
    cbn [aux_of app2] in C.
    destruct (hd_canon_vv tv E v1 v2 (h v1 v2) (g v1 v2)); auto; try (apply R; hasn); try can.
    repeat split; auto. apply (hd_canon_vc _ E); auto; try (apply R; hasn); can.
  - cbn [vars_of aux_of app2]. apply enamed_app; [|apply en_map_sem1; apply nm_leh; hasn].
    repeat first [apply en_sem; [apply nm_full; hasn|]|apply en_alloc; [intros u; apply named_vars; apply nm_hd_vc; hasn|]|
      apply en_con; [first [apply nm_ef; hasn|apply nm_hd_vv; hasn|apply nm_hd_vc; hasn]|]]. apply enamed_nil.
Qed.
Lemma counts_sym : forall n tv cv a b, 0 < n -> counts n tv cv (bit_ne a b) -> counts n tv cv (bit_ne b a).
Proof. intros n tv cv a b Hn. apply counts_ext; auto. intros. apply bit_ne_sym. Qed.

Lemma good_leh_cvv : forall v1 v2 c g, (0 < Dim m)%nat -> valid_inst (Dim m) (cVal c) -> g <> None -> good (LehCVV c v1 v2 g).
Proof.
  intros v1 v2 c g Hd Hc Hg. destruct g as [g|]; [|congruence].
  unfold good. cbn [atom_enc need]. atom_start. getfull c. rewrite first_feat_pos by auto. here. split; [|split].
  - intros tv E R. unemit. rewrite !scls_true_app, !andb_true_iff. intros (C1 & C2). cbn [holds]. unfold leh.
    assert (R1 : rep (Dim m) tv v1 (E v1)) by (apply R; hasn). assert (R2 : rep (Dim m) tv v2 (E v2)) by (apply R; hasn).
    rewrite (full_v_ok _ _ _ _ R1), (full_v_ok _ _ _ _ R2).
    rewrite (hd_vc_ok _ _ _ _ _ _ Hd R1 Hc) in C1. rewrite (hd_vc_ok _ _ _ _ _ _ Hd R2 Hc) in C2.
    apply counts_sym in C1; [|lia]. apply counts_sym in C2; [|lia].
    rewrite (leh_sem_ok _ _ _ _ _ _ _ _ Hd C1 C2). tauto.
  - intros tv E R C. unemit. rewrite !scls_true_app, !andb_true_iff.
    cbn [aux_of app2] in C. split; apply (hd_canon_vc _ E); auto; try (apply R; hasn); can.
  - cbn [vars_of aux_of app2]. apply enamed_app; [|apply en_map_sem1; apply nm_leh; hasn].
    repeat first [apply en_sem; [apply nm_full; hasn|]|
      apply en_con; [first [apply nm_ef; hasn|apply nm_hd_vv; hasn|apply nm_hd_vc; hasn]|]]. apply enamed_nil.
Qed.
Lemma good_leh_vcc : forall v c1 c2 g, (0 < Dim m)%nat -> valid_inst (Dim m) (cVal c1) -> valid_inst (Dim m) (cVal c2) -> g <> None -> good (LehVCC v c1 c2 g).
Proof.
  intros v c1 c2 g Hd Hc1 Hc2 Hg. destruct g as [g|]; [|congruence].
  unfold good. cbn [atom_enc need]. atom_start. getfull c1. getfull c2. rewrite first_feat_pos by auto. here. split; [|split].
  - intros tv E R. unemit. rewrite !scls_true_app, !andb_true_iff. intros (C1 & C2). cbn [holds]. unfold leh.
    assert (R1 : rep (Dim m) tv v (E v)) by (apply R; hasn).
    rewrite (full_v_ok _ _ _ _ R1).
    rewrite (hd_vc_ok _ _ _ _ _ _ Hd R1 Hc1) in C1. rewrite (hd_vc_ok _ _ _ _ _ _ Hd R1 Hc2) in C2.
    rewrite (leh_sem_ok _ _ _ _ _ _ _ _ Hd C1 C2). tauto.
  - intros tv E R C. unemit. rewrite !scls_true_app, !andb_true_iff.
    cbn [aux_of app2] in C. split; apply (hd_canon_vc _ E); auto; try (apply R; hasn); can.
  - cbn [vars_of aux_of app2]. apply enamed_app; [|apply en_map_sem1; apply nm_leh; hasn].
    repeat first [apply en_from; [apply nm_full; hasn|]|
      apply en_con; [first [apply nm_ef; hasn|apply nm_hd_vv; hasn|apply nm_hd_vc; hasn]|]]. apply enamed_nil.
Qed.
Lemma map_units : forall (h : string) (n : Z) l,
  map (fun i => ESem [[Ln h n i]]) l = map (fun cl => ESem [cl]) (map (fun i => [Ln h n i]) l).
Proof. intros. now rewrite map_map. Qed.
Lemma nm_units : forall (P : string -> Prop) (h : string) n l, P h -> named P (map (fun i => [Ln h n i]) l).
Proof. intros P h n l H. apply named_map. intros x y _ Hy. lits_in. auto. Qed.

Lemma good_leh_cvc : forall v c1 c2 g, (0 < Dim m)%nat -> valid_inst (Dim m) (cVal c1) -> valid_inst (Dim m) (cVal c2) -> g <> None ->
  quirk_free (Dim m) (LehCVC c1 v c2 g) -> good (LehCVC c1 v c2 g).
Proof.
  intros v c1 c2 g Hd Hc1 Hc2 Hg Q. destruct g as [g|]; [|congruence].
  unfold good. cbn [atom_enc need]. atom_start. getfull c1. getfull c2. specialize (Q F F0).
  rewrite (hd_cc_ok (Dim m)) by (apply Hc1 || apply Hc2). destruct (Z.eqb_spec (Z.of_nat (hamming (Dim m) (cVal c1) (cVal c2))) (Z.of_nat (Dim m))); [lia|].
  rewrite map_units. here. split; [|split].
  - intros tv E R. unemit. rewrite !scls_true_app, !andb_true_iff. intros C1. cbn [holds]. unfold leh.
    assert (R1 : rep (Dim m) tv v (E v)) by (apply R; hasn).
    rewrite (full_v_ok _ _ _ _ R1).
    rewrite (hd_vc_ok _ _ _ _ _ _ Hd R1 Hc1) in C1. apply counts_sym in C1; [|lia].
    rewrite (leh_upper_ok (Dim m) tv _ _ _ (Z.of_nat (hamming (Dim m) (cVal c1) (cVal c2))) Hd ltac:(lia) C1), <- Nat2Z.inj_le. tauto.
  - intros tv E R C. unemit.
    cbn [aux_of app2] in C. apply (hd_canon_vc _ E); auto; try (apply R; hasn); can.
  - cbn [vars_of aux_of app2]. apply enamed_app; [|apply en_map_sem1; apply nm_units; hasn].
    repeat first [apply en_from; [apply nm_full; hasn|]|
      apply en_con; [first [apply nm_ef; hasn|apply nm_hd_vv; hasn|apply nm_hd_vc; hasn]|]]. apply enamed_nil.
Qed.
Lemma hamming_0 : forall n a b, length a = n -> length b = n -> hamming n a b = 0%nat -> a = b.
Proof.
  intros n a b Ha Hb H. apply (nth_ext _ _ 0 0); [congruence|]. intros k Hk.
  assert (G : forall j, (j <= n)%nat -> cnt (bit_ne a b) j = 0 -> forall i, (i < j)%nat -> nth i a 0 = nth i b 0).
  { induction j as [|j IH]; intros Hj Z0 i Hi; [lia|]. cbn [cnt] in Z0. pose proof (cnt_range (bit_ne a b) j).
    destruct (bit_ne a b (Z.of_nat j)) eqn:B; [lia|].
    destruct (Nat.eq_dec i j) as [->|]; [|apply IH; lia].
    unfold bit_ne in B. apply negb_false_iff, Z.eqb_eq in B. unfold feat in B. rewrite !Nat2Z.id in B.
    rewrite (nth_indep a 0 BOT), (nth_indep b 0 BOT) by lia. exact B. }
  apply (G n); try lia. rewrite cnt_hamming. lia.
Qed.

Lemma good_leh_ccv : forall v c1 c2 g, (0 < Dim m)%nat -> valid_inst (Dim m) (cVal c1) -> valid_inst (Dim m) (cVal c2) -> g <> None ->
  quirk_free (Dim m) (LehCCV c1 c2 v g) -> good (LehCCV c1 c2 v g).
Proof.
  intros v c1 c2 g Hd Hc1 Hc2 Hg Q. destruct g as [g|]; [|congruence].
  unfold good. cbn [atom_enc need]. atom_start. getfull c1. getfull c2. specialize (Q F F0).
  rewrite (hd_cc_ok (Dim m)) by (apply Hc1 || apply Hc2).
  destruct (Z.eqb_spec (Z.of_nat (hamming (Dim m) (cVal c1) (cVal c2))) 0) as [Z0|Z0].
  { exfalso. apply Q. apply (hamming_0 (Dim m)); [apply Hc1|apply Hc2|lia]. }
  rewrite map_units. here. split; [|split].
  - intros tv E R. unemit. rewrite !scls_true_app, !andb_true_iff. intros C1. cbn [holds]. unfold leh.
    assert (R1 : rep (Dim m) tv v (E v)) by (apply R; hasn).
    rewrite (full_v_ok _ _ _ _ R1).
    rewrite (hd_vc_ok _ _ _ _ _ _ Hd R1 Hc1) in C1. apply counts_sym in C1; [|lia].
    pose proof (hamming_le (Dim m) (cVal c1) (cVal c2)).
    rewrite (leh_lower_ok (Dim m) tv _ _ _ (Z.of_nat (hamming (Dim m) (cVal c1) (cVal c2))) Hd ltac:(lia) C1), <- Nat2Z.inj_le. tauto.
  - intros tv E R C. unemit.
    cbn [aux_of app2] in C. apply (hd_canon_vc _ E); auto; try (apply R; hasn); can.
  - cbn [vars_of aux_of app2]. apply enamed_app; [|apply en_map_sem1; apply nm_units; hasn].
    repeat first [apply en_from; [apply nm_full; hasn|]|
      apply en_con; [first [apply nm_ef; hasn|apply nm_hd_vv; hasn|apply nm_hd_vc; hasn]|]]. apply enamed_nil.
Qed.
Lemma good_leh_ccc : forall c1 c2 c3, valid_inst (Dim m) (cVal c1) -> valid_inst (Dim m) (cVal c2) -> valid_inst (Dim m) (cVal c3) ->
  good (LehCCC c1 c2 c3).
Proof.
  intros c1 c2 c3 H1 H2 H3. unfold good. atom_start. getfull c1. getfull c2. getfull c3. here.
  intros E. cbn [holds]. unfold leh. rewrite !(hd_cc_ok (Dim m)) by (apply H1 || apply H2 || apply H3).
  rewrite negb_true_iff, Z.ltb_ge. rewrite <- Nat2Z.inj_le. tauto.
Qed.

Theorem atom_good : forall a, atom_ok (Dim m) a -> model_ok m t a -> good a.
Proof.
  intros a H M. destruct a; okd H; cbn [model_ok] in M; repeat match goal with H : _ /\ _ |- _ => destruct H end.
  - apply good_subs_vv.
  - now apply good_subs_vc.
  - now apply good_subs_cv.
  - now apply good_subs_cc.
  - now apply good_lel_vv.
  - now apply good_lel_vc.
  - now apply good_lel_cv.
  - now apply good_lel_cc.
  - now apply good_node_v.
  - now apply good_node_c.
  - now apply good_full_v.
  - now apply good_full_c.
  - now apply good_cons_vv.
  - now apply good_cons_vc.
  - now apply good_cons_cv.
  - now apply good_cons_cc.
  - now apply good_all_v.
  - now apply good_all_c.
  - now apply good_dfs_v.
  - now apply good_dfs_c.
  - now apply good_hepr_vv.
  - now apply good_hepr_vc.
  - now apply good_hepr_cv.
  - now apply good_hepr_cc.
  - now apply good_leh_vvv.
  - now apply good_leh_vvc.
  - now apply good_leh_vcv.
  - now apply good_leh_cvv.
  - now apply good_leh_vcc.
  - now apply good_leh_cvc.
  - now apply good_leh_ccv.
  - now apply good_leh_ccc.
Qed.

End Main.

Theorem atom_exact : forall s vm m t a, sc_inv s ->
  atom_ok (Dim m) (resolve s a) -> model_ok m t (resolve s a) ->
  exists out, atom_enc (mkCtx s vm m) a = Ok out /\ exact (Dim m) t (resolve s a) out.
Proof.
  intros s vm m t a H1 H2 H3. rewrite (atom_enc_resolve s vm m vm a H1). now apply atom_good.
Qed.
Print Assumptions atom_exact.
