(* Properties C12-C20: the encodings of the predicates and extensions are exact.
   In every context the library can be in, the encoding succeeds, and for every
   valuation of the CNF variables that satisfies the consistency clauses, the
   semantic clauses hold iff the instances spelled by the valuation are in the
   documented relation (Spec.v); the consistency clauses themselves do not
   restrict the instances when the generated names are new; and the same for
   the negated component. *)
From Verif Require Import GoBase GoLemmas Cnf Query Walk Atoms Logop Spec Meaning CnfSem QueryLemmas Sym AtomBase AtomMain Form Master Block Sat AtomCnf.
Local Open Scope string_scope.
Local Open Scope Z_scope.
Local Open Scope list_scope.

Definition encoded (c : ctx) (a : atom) (names : list string) (new : Prop) (P : env -> Prop) : Prop :=
  (exists f c', enc (QAtom a) c = (Ok f, c') /\ good_ctx c' /\ vm_ext (cVM c) (cVM c') /\
     says c c' f names P /\ (new -> admits c c' f names)) /\
  (exists g c', enc (QNot (QAtom a)) c = (Ok g, c') /\ good_ctx c' /\ vm_ext (cVM c) (cVM c') /\
     says c c' g names (fun E => ~ P E) /\ (new -> admits c c' g names)).

Lemma encoded_intro : forall c t a (new : Prop), good_ctx c ->
  atom_ok (Dim (cModel c)) (resolve (cScoper c) a) -> model_ok (cModel c) t (resolve (cScoper c) a) ->
  (new -> own_names t c a) ->
  encoded c a (vars_of (resolve (cScoper c) a)) new (fun E => holds (Dim (cModel c)) t E (resolve (cScoper c) a)).
Proof.
  intros c t a new G H1 H2 HN. split.
  - destruct (atom_cnf c t a G H1 H2) as (f & c' & E & G' & _ & _ & X & _ & _ & A & B). exists f, c'. repeat (split; [assumption|]). auto.
  - destruct (not_atom_cnf c t a G H1 H2) as (f & c' & E & G' & _ & _ & X & A & B). exists f, c'. repeat (split; [assumption|]). auto.
Qed.

(* The value a constant has in a context. *)
Definition value (c : ctx) (k : QConst) : inst := cVal (fst (ScopeConst (cScoper c) k)).
Definition valid_const (c : ctx) (k : QConst) : Prop := valid_inst (Dim (cModel c)) (value c k).
(* The name a variable has in a context. *)
Definition named_as (c : ctx) (v : QVar) (n : string) : Prop := ScopeVar (cScoper c) v = Ok n.

Lemma named_sname : forall c v n, good_ctx c -> named_as c v n -> n = sname (cScoper c) v.
Proof. intros c v n [_ J] H. unfold named_as in H. rewrite ScopeVar_ok in H by auto. injection H as <-. reflexivity. Qed.

(* A generated name is new: not in use, not the name of an operand. *)
Definition new_name (c : ctx) (names : list string) (n : string) : Prop := unused c n /\ ~ In n names.

Ltac names_in :=
  repeat match goal with
  | H : named_as ?c ?v ?n, G : good_ctx ?c |- _ => apply (named_sname c v n G) in H; subst n
  end.
Ltac own :=
  repeat match goal with H : _ /\ _ |- _ => destruct H end;
  repeat match goal with H : new_name _ _ _ |- _ => destruct H end;
  split;
  [ let n := fresh "n" in let k := fresh "k" in let H := fresh "H" in intros n k H;
    cbn [aux_of resolve map_atom app1 app2 app3 vars_of] in *;
    repeat (destruct H as [H|H]); try contradiction; injection H as <- <-; split; auto
  | let n := fresh "n" in let k := fresh "k" in let k' := fresh "k'" in let H := fresh "H" in let H' := fresh "H'" in intros n k k' H H';
    cbn [aux_of resolve map_atom app1 app2 app3] in *;
    unfold sconst in *;
    repeat (destruct H as [H|H]); try contradiction; repeat (destruct H' as [H'|H']); try contradiction;
    injection H as <- <-;
    let Q := fresh "Q" in pose proof (f_equal fst H') as Q; apply (f_equal snd) in H'; cbn [fst snd] in Q, H'; subst k';
    first [ intros E i x; reflexivity
          | match goal with I : _ = _ -> sname _ _ = sname _ _ |- _ => rewrite I by congruence; intros E i x; reflexivity end
          | exfalso; congruence
          | idtac ] ].
Ltac ok := split; [cbn [consts_of resolve map_atom]; repeat (apply Forall_cons; [assumption|]); apply Forall_nil
  |split; [cbn [gens_ok resolve map_atom]; repeat split; first [discriminate|exact I]
  |split; cbn [pref_ok quirk_free resolve map_atom]; auto]].
Ltac exactly t :=
  intros; unfold valid_const in *; names_in;
  match goal with G : good_ctx ?c |- encoded ?c ?a _ ?new _ => apply (encoded_intro c t a new G) end.
Ltac plain := exactly (Leaf 0 true); [ok|exact I|intros _; own].

(* ---- C12 ---- *)

Theorem C12_subsumption_exact : forall c, good_ctx c -> let d := Dim (cModel c) in
  (forall v1 v2 n1 n2, named_as c v1 n1 -> named_as c v2 n2 ->
     encoded c (SubsVV v1 v2) [n1; n2] True (fun E => subsumed d (E n1) (E n2))) /\
  (forall v k n, named_as c v n -> valid_const c k ->
     encoded c (SubsVC v k) [n] True (fun E => subsumed d (E n) (value c k))) /\
  (forall v k n, named_as c v n -> valid_const c k ->
     encoded c (SubsCV k v) [n] True (fun E => subsumed d (value c k) (E n))) /\
  (forall k1 k2, valid_const c k1 -> valid_const c k2 ->
     encoded c (SubsCC k1 k2) [] True (fun _ => subsumed d (value c k1) (value c k2))).
Proof. intros c G d. split; [|split; [|split]]; plain. Qed.
Print Assumptions C12_subsumption_exact.

(* ---- C13 ---- *)

(* g is the CountVarGen of the component. *)
Theorem C13_lel_exact : forall c g, good_ctx c -> (0 < Dim (cModel c))%nat -> let d := Dim (cModel c) in
  (forall v1 v2 n1 n2, named_as c v1 n1 -> named_as c v2 n2 ->
     encoded c (LelVV v1 v2 (Some g)) [n1; n2]
       (new_name c [n1; n2] (g n1) /\ new_name c [n1; n2] (g n2) /\ (g n1 = g n2 -> n1 = n2))
       (fun E => level_le d (E n1) (E n2))) /\
  (forall v k n, named_as c v n -> valid_const c k ->
     encoded c (LelVC v k (Some g)) [n] (new_name c [n] (g n)) (fun E => level_le d (E n) (value c k))) /\
  (forall v k n, named_as c v n -> valid_const c k ->
     encoded c (LelCV k v (Some g)) [n] (new_name c [n] (g n)) (fun E => level_le d (value c k) (E n))) /\
  (forall k1 k2, valid_const c k1 -> valid_const c k2 ->
     encoded c (LelCC k1 k2) [] True (fun _ => level_le d (value c k1) (value c k2))).
Proof.
  intros c g G Hd d. split; [|split; [|split]]; exactly (Leaf 0 true); [ok|exact Hd| |ok|exact Hd| |ok|exact Hd| |ok|exact I| ].
  - intros H; own.
  - intros H; own.
  - intros H; own.
  - intros _; own.
Qed.
Print Assumptions C13_lel_exact.

(* ---- C14 ---- *)

(* g is the ReachNodeVarGen of the component. *)
Theorem C14_node_exact : forall c t g, good_ctx c -> is_dtree (cModel c) t -> let d := Dim (cModel c) in
  (forall v n, named_as c v n ->
     encoded c (NodeV v (Some g)) [n] (new_name c [n] (g n)) (fun E => is_node d t (E n))) /\
  (forall k, valid_const c k -> encoded c (NodeC k) [] True (fun _ => is_node d t (value c k))).
Proof.
  intros c t g G T d. split; exactly t; [ok|exact T|intros H; own|ok|exact T|intros _; own].
Qed.
Print Assumptions C14_node_exact.

(* ---- C15 ---- *)

Theorem C15_full_exact : forall c, good_ctx c -> let d := Dim (cModel c) in
  (forall v n, named_as c v n -> encoded c (FullV v) [n] True (fun E => full d (E n))) /\
  (forall k, valid_const c k -> encoded c (FullC k) [] True (fun _ => full d (value c k))).
Proof. intros c G d. split; plain. Qed.
Print Assumptions C15_full_exact.

(* ---- C16 ---- *)

Theorem C16_cons_exact : forall c, good_ctx c -> let d := Dim (cModel c) in
  (forall v1 v2 n1 n2, named_as c v1 n1 -> named_as c v2 n2 ->
     encoded c (ConsVV v1 v2) [n1; n2] True (fun E => consistent d (E n1) (E n2))) /\
  (forall v k n, named_as c v n -> valid_const c k ->
     encoded c (ConsVC v k) [n] True (fun E => consistent d (E n) (value c k))) /\
  (forall v k n, named_as c v n -> valid_const c k ->
     encoded c (ConsCV k v) [n] True (fun E => consistent d (value c k) (E n))) /\
  (forall k1 k2, valid_const c k1 -> valid_const c k2 ->
     encoded c (ConsCC k1 k2) [] True (fun _ => consistent d (value c k1) (value c k2))).
Proof. intros c G d. split; [|split; [|split]]; plain. Qed.
Print Assumptions C16_cons_exact.

(* ---- C17 ---- *)

Theorem C17_allcomp_exact : forall c t g b, good_ctx c -> is_dtree (cModel c) t -> let d := Dim (cModel c) in
  (forall v n, named_as c v n ->
     encoded c (AllV v b (Some g)) [n] (new_name c [n] (g n)) (fun E => all_comp d t b (E n))) /\
  (forall k, valid_const c k -> encoded c (AllC k b) [] True (fun _ => all_comp d t b (value c k))).
Proof.
  intros c t g b G T d. split; exactly t; [ok|exact T|intros H; own|ok|exact T|intros _; own].
Qed.
Print Assumptions C17_allcomp_exact.

(* ---- C18 ---- *)

Theorem C18_dfs_exact : forall c t, good_ctx c -> is_dtree (cModel c) t -> let d := Dim (cModel c) in
  (forall v n, named_as c v n -> encoded c (DfsV v) [n] True (fun E => determinant d t (E n))) /\
  (forall k, valid_const c k -> encoded c (DfsC k) [] True (fun _ => determinant d t (value c k))).
Proof.
  intros c t G T d. split; exactly t; [ok|exact T|intros H; own|ok|exact T|intros _; own].
Qed.
Print Assumptions C18_dfs_exact.

(* ---- C19 ---- *)

(* A preference: features in range, none twice; the versions with a variable
   also need one feature at least. *)
Theorem C19_hepr_exact : forall c g pref, good_ctx c -> pref_valid (Dim (cModel c)) pref ->
  (pref <> [] ->
   (forall v1 v2 n1 n2, named_as c v1 n1 -> named_as c v2 n2 ->
      encoded c (HeprVV v1 v2 pref (Some g)) [n1; n2] (new_name c [n1; n2] (g (prefVar pref) n1 n2))
        (fun E => preferred pref (E n1) (E n2))) /\
   (forall v k n, named_as c v n -> valid_const c k ->
      encoded c (HeprVC v k pref (Some g)) [n]
        (new_name c [n] (g (prefVar pref) n (AsString (fst (ScopeConst (cScoper c) k)))))
        (fun E => preferred pref (E n) (value c k))) /\
   (forall v k n, named_as c v n -> valid_const c k ->
      encoded c (HeprCV k v pref (Some g)) [n]
        (new_name c [n] (g (prefVar pref) (AsString (fst (ScopeConst (cScoper c) k))) n))
        (fun E => preferred pref (value c k) (E n)))) /\
  (forall k1 k2, valid_const c k1 -> valid_const c k2 ->
     encoded c (HeprCC k1 k2 pref) [] True (fun _ => preferred pref (value c k1) (value c k2))).
Proof.
  intros c g pref G P. split.
  - intros N. split; [|split]; exactly (Leaf 0 true); [ok|exact I|intros H; own|ok|exact I|intros H; own|ok|exact I|intros H; own].
  - exactly (Leaf 0 true); [ok|exact I|intros _; own].
Qed.
Print Assumptions C19_hepr_exact.

(* ---- C20 ---- *)

(* g is HammingDistVarGen, h is EqualFeatVarGen (FeatEqualVarGen). *)
Theorem C20_leh_exact_partial : forall c g h, good_ctx c -> (0 < Dim (cModel c))%nat -> let d := Dim (cModel c) in
  let str k := AsString (fst (ScopeConst (cScoper c) k)) in
  (forall v1 v2 v3 n1 n2 n3, named_as c v1 n1 -> named_as c v2 n2 -> named_as c v3 n3 ->
     let N := new_name c [n1; n2; n3] in
     encoded c (LehVVV v1 v2 v3 (Some g) (Some h)) [n1; n2; n3]
       (N (g n1 n2) /\ N (g n1 n3) /\ N (h n1 n2) /\ N (h n1 n3) /\
        (g n1 n2 = g n1 n3 -> n2 = n3) /\ (h n1 n2 = h n1 n3 -> n2 = n3) /\
        g n1 n2 <> h n1 n2 /\ g n1 n2 <> h n1 n3 /\ g n1 n3 <> h n1 n2 /\ g n1 n3 <> h n1 n3)
       (fun E => leh d (E n1) (E n2) (E n3))) /\
  (forall v1 v2 k n1 n2, named_as c v1 n1 -> named_as c v2 n2 -> valid_const c k ->
     let N := new_name c [n1; n2] in
     let new := N (g n1 n2) /\ N (g n1 (str k)) /\ N (h n1 n2) /\
                g n1 n2 <> g n1 (str k) /\ g n1 n2 <> h n1 n2 /\ g n1 (str k) <> h n1 n2 in
     encoded c (LehVVC v1 v2 k (Some g) (Some h)) [n1; n2] new (fun E => leh d (E n1) (E n2) (value c k)) /\
     encoded c (LehVCV v1 k v2 (Some g) (Some h)) [n1; n2] new (fun E => leh d (E n1) (value c k) (E n2)) /\
     encoded c (LehCVV k v1 v2 (Some g)) [n1; n2]
       (N (g n1 (str k)) /\ N (g n2 (str k)) /\ (g n1 (str k) = g n2 (str k) -> n1 = n2))
       (fun E => leh d (value c k) (E n1) (E n2))) /\
  (forall v k1 k2 n, named_as c v n -> valid_const c k1 -> valid_const c k2 ->
     encoded c (LehVCC v k1 k2 (Some g)) [n]
       (new_name c [n] (g n (str k1)) /\ new_name c [n] (g n (str k2)) /\ (g n (str k1) = g n (str k2) -> value c k1 = value c k2))
       (fun E => leh d (E n) (value c k1) (value c k2)) /\
     (* not when the constants are full and at distance d *)
     ((full d (value c k1) -> full d (value c k2) -> hamming d (value c k1) (value c k2) <> d) ->
      encoded c (LehCVC k1 v k2 (Some g)) [n] (new_name c [n] (g n (str k2)))
        (fun E => leh d (value c k1) (E n) (value c k2))) /\
     (* not when the constants are full and equal *)
     ((full d (value c k1) -> full d (value c k2) -> value c k1 <> value c k2) ->
      encoded c (LehCCV k1 k2 v (Some g)) [n] (new_name c [n] (g n (str k1)))
        (fun E => leh d (value c k1) (value c k2) (E n)))) /\
  (forall k1 k2 k3, valid_const c k1 -> valid_const c k2 -> valid_const c k3 ->
     encoded c (LehCCC k1 k2 k3) [] True (fun _ => leh d (value c k1) (value c k2) (value c k3))).
Proof.
  intros c g h G Hd d str. split; [|split; [|split]].
  - intros v1 v2 v3 n1 n2 n3 A1 A2 A3 N. unfold N. exactly (Leaf 0 true); [ok|exact Hd|intros H; own].
  - intros v1 v2 k n1 n2 A1 A2 A3 N new. unfold new, N, str. split; [|split]; exactly (Leaf 0 true); [ok|exact Hd|intros H; own|ok|exact Hd|intros H; own|ok|exact Hd|intros H; own].
  - intros v k1 k2 n A1 A2 A3. unfold str. split; [|split].
    + exactly (Leaf 0 true); [ok|exact Hd|intros H]. own.
      * intros E i x. unfold value in H1. rewrite H1 by congruence. reflexivity.
      * intros E i x. unfold value in H1. rewrite H1 by congruence. reflexivity.
    + intros Q. exactly (Leaf 0 true); [ok|exact Hd|intros H; own].
    + intros Q. exactly (Leaf 0 true); [ok|exact Hd|intros H; own].
  - exactly (Leaf 0 true); [ok|exact I|intros _; own].
Qed.
Print Assumptions C20_leh_exact_partial.

(* const_var_const.go answers True when the constants are at distance d, also
   for a variable that is not full; const_const_var.go when they are equal. *)
Definition two : model := mkModel 1 [].
Theorem C20_leh_cvc_refuted : exists k1 k2 g f c' r E,
  valid_const (BasicQContext two) k1 /\ valid_const (BasicQContext two) k2 /\
  enc (QAtom (LehCVC k1 "x" k2 (Some g))) (BasicQContext two) = (Ok f, c') /\
  spells c' r "x" (E "x") /\ Con r f = true /\ Sem r f = true /\
  ~ leh 1 (value (BasicQContext two) k1) (E "x") (value (BasicQContext two) k2).
Proof.
  exists (mkQConst "" [ZERO]), (mkQConst "" [ONE]), (fun a b => (a ++ "-" ++ b)%string).
  do 2 eexists. exists (fun _ => true), (fun _ => [BOT]). split; [|split; [|split; [reflexivity|]]].
  - split; [reflexivity|]. repeat constructor; right; auto.
  - split; [reflexivity|]. repeat constructor; right; auto.
  - split; [|split; [reflexivity|split; [reflexivity|]]].
    + split; [split; [reflexivity|]; constructor; [left; reflexivity|constructor]|]. intros i x n _ _ H. discriminate.
    + intros (_ & F & _). apply (F 0); [unfold in_range; simpl; lia|reflexivity].
Qed.
Print Assumptions C20_leh_cvc_refuted.
Theorem C20_leh_ccv_refuted : exists k1 k2 g f c' r E,
  valid_const (BasicQContext two) k1 /\ valid_const (BasicQContext two) k2 /\
  enc (QAtom (LehCCV k1 k2 "x" (Some g))) (BasicQContext two) = (Ok f, c') /\
  spells c' r "x" (E "x") /\ Con r f = true /\ Sem r f = true /\
  ~ leh 1 (value (BasicQContext two) k1) (value (BasicQContext two) k2) (E "x").
Proof.
  exists (mkQConst "" [ZERO]), (mkQConst "" [ZERO]), (fun a b => (a ++ "-" ++ b)%string).
  do 2 eexists. exists (fun _ => true), (fun _ => [BOT]). split; [|split; [|split; [reflexivity|]]].
  - split; [reflexivity|]. repeat constructor; right; auto.
  - split; [reflexivity|]. repeat constructor; right; auto.
  - split; [|split; [reflexivity|split; [reflexivity|]]].
    + split; [split; [reflexivity|]; constructor; [left; reflexivity|constructor]|]. intros i x n _ _ H. discriminate.
    + intros (_ & _ & F & _). apply (F 0); [unfold in_range; simpl; lia|reflexivity].
Qed.
Print Assumptions C20_leh_ccv_refuted.

(* ---- concrete cases ---- *)

Lemma basic_good : forall m, good_ctx (BasicQContext m).
Proof. intros m. split; [apply vm_inv_init|]. constructor. Qed.
Lemma basic_named : forall m v, named_as (BasicQContext m) v v.
Proof. intros. reflexivity. Qed.
Lemma basic_new : forall m l n, ~ In n l -> new_name (BasicQContext m) l n.
Proof. intros m l n H. split; auto. intros i x. reflexivity. Qed.

(* A tree over three features: feature 1 at the root, feature 0 on its right. *)
Definition ex_nodes : list node :=
  [mkNode false 1 1 2; mkNode true (-1) (-1) (-1); mkNode false 0 4 3;
   mkNode true (-1) (-1) (-1); mkNode false (-1) (-1) (-1)].
Definition ex_model : model := mkModel 3 ex_nodes.
Definition ex_tree : tree := Split 0 1 (Leaf 1 true) (Split 2 0 (Leaf 4 false) (Leaf 3 true)).
Lemma ex_dtree : is_dtree ex_model ex_tree.
Proof.
  unfold is_dtree, ex_model, ex_tree. cbn [Dim Nodes pos laid_out positions read_once app length].
  split; [lia|]. split; [reflexivity|]. split.
  { repeat split; try lia; eexists; repeat split. }
  split. { repeat constructor; simpl; intuition lia. }
  split; [reflexivity|]. unfold in_range. simpl. repeat split; try lia; intuition lia.
Qed.

(* Node(x) in a new context: for the branch x1 = 1 the clauses can be met and
   hold, for x1 = 0, x2 = 1 they can be met and fail. *)
Example C14_case : forall E, E "x" = [BOT; ONE; BOT] \/ E "x" = [BOT; ZERO; ONE] ->
  exists f c' r, enc (QAtom (NodeV "x" (Some (fun v => ("r" ++ v)%string)))) (BasicQContext ex_model) = (Ok f, c') /\
    spells c' r "x" (E "x") /\ Con r f = true /\ (Sem r f = true <-> E "x" = [BOT; ONE; BOT]).
Proof.
  intros E HE.
  destruct (C14_node_exact (BasicQContext ex_model) ex_tree (fun v => ("r" ++ v)%string) (basic_good _) ex_dtree) as [H _].
  destruct (H "x" "x" (basic_named _ _)) as [(f & c' & E1 & G & _ & S & A) _].
  destruct (A ltac:(apply basic_new; simpl; intuition discriminate) (fun _ => false) E) as (r & _ & R & C).
  { intros w [<-|[]]. split; [|intros i x n _ _ Hn; discriminate].
    destruct HE as [-> | ->]; (split; [reflexivity|]); repeat (apply Forall_cons; [unfold valid_feat; auto|]); apply Forall_nil. }
  exists f, c', r. split; [exact E1|]. split; [apply R; simpl; auto|]. split; [exact C|].
  rewrite (S r E R C). unfold is_node.
  destruct HE as [-> | ->]; vm_compute; split; auto; try tauto.
  intros X. repeat destruct X as [X|X]; try discriminate; contradiction.
Qed.

Definition evalk (q : query) (r : Z -> bool) : option (bool * bool) :=
  match fst (enc q (BasicQContext ex_model)) with Ok f => Some (Con r f, Sem r f) | _ => None end.
(* valuation spelling e for the variable whose triples are numbered first: the
   encoding of WithVar numbers them ZERO, ONE, BOT per feature *)
Definition val1 (e : inst) : Z -> bool := fun n =>
  let k := (n - 1) / 3 in let x := (n - 1) mod 3 in
  if x =? 0 then feat e k =? ZERO else if x =? 1 then feat e k =? ONE else feat e k =? BOT.
Definition subs_case (k : QConst) : query := QWith "x" (QAtom (SubsVC "x" k)).
Example C12_case :
  evalk (subs_case (mkQConst "" [ONE; BOT; ZERO])) (val1 [ONE; BOT; BOT]) = Some (true, true) /\
  evalk (subs_case (mkQConst "" [ONE; BOT; ZERO])) (val1 [ONE; ONE; BOT]) = Some (true, false).
Proof. vm_compute. split; reflexivity. Qed.
Example C15_case :
  evalk (QWith "x" (QAtom (FullV "x"))) (val1 [ONE; ZERO; ZERO]) = Some (true, true) /\
  evalk (QWith "x" (QAtom (FullV "x"))) (val1 [ONE; ZERO; BOT]) = Some (true, false) /\
  evalk (QAtom (FullC (mkQConst "" [ONE; ZERO; BOT]))) (fun _ => true) = Some (true, false).
Proof. vm_compute. repeat split. Qed.
Example C16_case :
  evalk (QWith "x" (QAtom (ConsVC "x" (mkQConst "" [ONE; BOT; ZERO])))) (val1 [BOT; ZERO; ZERO]) = Some (true, true) /\
  evalk (QWith "x" (QAtom (ConsVC "x" (mkQConst "" [ONE; BOT; ZERO])))) (val1 [BOT; ZERO; ONE]) = Some (true, false).
Proof. vm_compute. split; reflexivity. Qed.
(* {x1} determines nothing, {x0, x1} does *)
Example C18_case :
  evalk (QWith "x" (QAtom (DfsV "x"))) (val1 [ONE; ONE; BOT]) = Some (true, true) /\
  evalk (QWith "x" (QAtom (DfsV "x"))) (val1 [BOT; ONE; BOT]) = Some (true, false) /\
  evalk (QAtom (DfsC (mkQConst "" [ZERO; ZERO; BOT]))) (fun _ => true) = Some (true, true) /\
  evalk (QAtom (DfsC (mkQConst "" [BOT; ZERO; BOT]))) (fun _ => true) = Some (true, false).
Proof. vm_compute. repeat split. Qed.
Example C17_case :
  evalk (QAtom (AllC (mkQConst "" [BOT; ZERO; BOT]) true)) (fun _ => true) = Some (true, true) /\
  evalk (QAtom (AllC (mkQConst "" [BOT; BOT; BOT]) true)) (fun _ => true) = Some (true, false) /\
  evalk (QAtom (AllC (mkQConst "" [ZERO; ONE; BOT]) false)) (fun _ => true) = Some (true, true).
Proof. vm_compute. repeat split. Qed.

(* The hypotheses of C13, C17, C19 and C20 hold for a new context and tagged
   names; the encodings can be met there. *)
Example C13_case : exists f c',
  enc (QAtom (LelVV "x" "y" (Some (fun v => ("n" ++ v)%string)))) (BasicQContext ex_model) = (Ok f, c') /\
  admits (BasicQContext ex_model) c' f ["x"; "y"] /\
  says (BasicQContext ex_model) c' f ["x"; "y"] (fun E => (bots 3 (E "y") <= bots 3 (E "x"))%nat).
Proof.
  destruct (C13_lel_exact (BasicQContext ex_model) (fun v => ("n" ++ v)%string) (basic_good _) ltac:(simpl; lia)) as [H _].
  destruct (H "x" "y" "x" "y" (basic_named _ _) (basic_named _ _)) as [(f & c' & E1 & G & _ & S & A) _].
  exists f, c'. split; [exact E1|]. split; [|exact S]. apply A.
  split; [apply basic_new; simpl; intuition discriminate|]. split; [apply basic_new; simpl; intuition discriminate|]. discriminate.
Qed.
Example C19_case : exists f c',
  enc (QAtom (HeprVV "x" "y" [2; 0] (Some (fun p a b => ("h" ++ p ++ "," ++ a ++ "," ++ b)%string)))) (BasicQContext ex_model) = (Ok f, c') /\
  admits (BasicQContext ex_model) c' f ["x"; "y"] /\
  says (BasicQContext ex_model) c' f ["x"; "y"] (fun E => preferred [2; 0] (E "x") (E "y")).
Proof.
  destruct (C19_hepr_exact (BasicQContext ex_model) (fun p a b => ("h" ++ p ++ "," ++ a ++ "," ++ b)%string) [2; 0] (basic_good _)) as [H _].
  { split; [repeat constructor; unfold in_range; simpl; lia|]. repeat constructor; simpl; intuition lia. }
  destruct (H ltac:(discriminate)) as [H1 _]. destruct (H1 "x" "y" "x" "y" (basic_named _ _) (basic_named _ _)) as [(f & c' & E1 & G & _ & S & A) _].
  exists f, c'. split; [exact E1|]. split; [|exact S]. apply A. apply basic_new. simpl; intuition discriminate.
Qed.
Example C20_case : exists f c',
  enc (QAtom (LehVVV "x" "y" "z" (Some (fun a b => ("h" ++ a ++ "," ++ b)%string)) (Some (fun a b => ("e" ++ a ++ "," ++ b)%string)))) (BasicQContext ex_model) = (Ok f, c') /\
  admits (BasicQContext ex_model) c' f ["x"; "y"; "z"] /\
  says (BasicQContext ex_model) c' f ["x"; "y"; "z"] (fun E => leh 3 (E "x") (E "y") (E "z")).
Proof.
  destruct (C20_leh_exact_partial (BasicQContext ex_model) (fun a b => ("h" ++ a ++ "," ++ b)%string) (fun a b => ("e" ++ a ++ "," ++ b)%string) (basic_good _) ltac:(simpl; lia)) as [H _].
  destruct (H "x" "y" "z" "x" "y" "z" (basic_named _ _) (basic_named _ _) (basic_named _ _)) as [(f & c' & E1 & G & _ & S & A) _].
  exists f, c'. split; [exact E1|]. split; [|exact S]. apply A.
  do 4 (split; [apply basic_new; simpl; intuition discriminate|]).
  split; [discriminate|]. split; [discriminate|]. do 3 (split; [discriminate|]). discriminate.
Qed.
