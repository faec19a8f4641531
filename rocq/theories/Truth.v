(* Specification of queries: when a query is true of a decision tree.
   Independent of the encoders. *)
From Verif Require Import GoBase GoLemmas Query Atoms Logop Spec Meaning.
Local Open Scope Z_scope.
Local Open Scope list_scope.

(* Values of the guarded constants, innermost first. *)
Definition bindings := list (string * inst).
Fixpoint bound_value (K : bindings) (id : string) : option inst :=
  match K with
  | [] => None
  | (k, e) :: r => if String.eqb k id then Some e else bound_value r id
  end.
Definition bind_const (K : bindings) (c : QConst) : QConst :=
  match bound_value K (cID c) with Some e => mkQConst (cID c) e | None => c end.
Definition bind_atom (K : bindings) (a : atom) : atom := map_atom (fun v => v) (bind_const K) a.

Definition valid_env (d : nat) (E : env) : Prop := forall v, valid_inst d (E v).

(* ---- first-order reading: WithVar is "there is" ---- *)

Definition env_set (E : env) (v : string) (e : inst) : env := fun w => if String.eqb w v then e else E w.

Fixpoint trueFO (d : nat) (t : tree) (E : env) (K : bindings) (q : query) : Prop :=
  match q with
  | QNil => True
  | QAtom a => holds d t E (bind_atom K a)
  | QNot q => ~ trueFO d t E K q
  | QAnd q1 q2 => trueFO d t E K q1 /\ trueFO d t E K q2
  | QOr q1 q2 => trueFO d t E K q1 \/ trueFO d t E K q2
  | QWith v q => exists e, valid_inst d e /\ trueFO d t (env_set E v e) K q
  | QAll c q => forall e, is_node d t e -> trueFO d t E ((cID c, e) :: K) q
  end.

(* ---- block reading: WithVar declares; the variables declared in the body of
   a ForAllGuarded (or in the whole query), but not in a ForAllGuarded inside
   it, are existentially quantified in front of that body ---- *)

Fixpoint block_vars (q : query) : list string :=
  match q with
  | QNil | QAtom _ | QAll _ _ => []
  | QNot q => block_vars q
  | QAnd q1 q2 | QOr q1 q2 => block_vars q1 ++ block_vars q2
  | QWith v q => v :: block_vars q
  end.

Fixpoint matrix (d : nat) (t : tree) (E : env) (K : bindings) (q : query) : Prop :=
  match q with
  | QNil => True
  | QAtom a => holds d t E (bind_atom K a)
  | QNot q => ~ matrix d t E K q
  | QAnd q1 q2 => matrix d t E K q1 /\ matrix d t E K q2
  | QOr q1 q2 => matrix d t E K q1 \/ matrix d t E K q2
  | QWith _ q => matrix d t E K q
  | QAll c q =>
      forall e, is_node d t e ->
        exists E', valid_env d E' /\ (forall v, ~ In v (block_vars q) -> E' v = E v) /\
                   matrix d t E' ((cID c, e) :: K) q
  end.

Definition true_query (d : nat) (t : tree) (q : query) : Prop :=
  exists E, valid_env d E /\ matrix d t E [] q.

(* ---- well-formed queries ---- *)

(* All names declared in a query. *)
Fixpoint all_vars (q : query) : list string :=
  match q with
  | QNil | QAtom _ => []
  | QNot q | QAll _ q => all_vars q
  | QAnd q1 q2 | QOr q1 q2 => all_vars q1 ++ all_vars q2
  | QWith v q => v :: all_vars q
  end.
Fixpoint all_ids (q : query) : list string :=
  match q with
  | QNil | QAtom _ => []
  | QNot q | QWith _ q => all_ids q
  | QAnd q1 q2 | QOr q1 q2 => all_ids q1 ++ all_ids q2
  | QAll c q => cID c :: all_ids q
  end.

(* Variables are used under their declaration; a ForAllGuarded does not use the
   ID of one around it, and the names declared directly in its body are not
   declared in a block around it (B). *)
Fixpoint scoped (B G ids : list string) (q : query) : Prop :=
  match q with
  | QNil => False
  | QAtom a => incl (vars_of a) G
  | QNot q => scoped B G ids q
  | QAnd q1 q2 | QOr q1 q2 => scoped B G ids q1 /\ scoped B G ids q2
  | QWith v q => scoped B (v :: G) ids q
  | QAll c q =>
      ~ In (cID c) ids /\ (forall v, In v (block_vars q) -> ~ In v B) /\
      scoped (block_vars q ++ B) G (cID c :: ids) q
  end.

(* The ForAllGuarded's of a block: ID and names declared inside. *)
Fixpoint block_alls (q : query) : list (string * list string) :=
  match q with
  | QNil | QAtom _ => []
  | QNot q | QWith _ q => block_alls q
  | QAnd q1 q2 | QOr q1 q2 => block_alls q1 ++ block_alls q2
  | QAll c q => [(cID c, all_vars q)]
  end.
Definition apart (a b : string * list string) : Prop :=
  fst a = fst b -> forall v, In v (snd a) -> ~ In v (snd b).
(* Two ForAllGuarded's of one block with the same ID declare different names. *)
Fixpoint siblings_apart (q : query) : Prop :=
  match q with
  | QNil | QAtom _ => True
  | QNot q | QWith _ q | QAll _ q => siblings_apart q
  | QAnd q1 q2 | QOr q1 q2 =>
      siblings_apart q1 /\ siblings_apart q2 /\
      forall a b, In a (block_alls q1) -> In b (block_alls q2) -> apart a b
  end.
(* Nothing is declared in a ForAllGuarded under a Not. *)
Fixpoint negation_plain (q : query) : Prop :=
  match q with
  | QNil | QAtom _ => True
  | QNot q => (forall a, In a (block_alls q) -> snd a = []) /\ negation_plain q
  | QWith _ q | QAll _ q => negation_plain q
  | QAnd q1 q2 | QOr q1 q2 => negation_plain q1 /\ negation_plain q2
  end.

(* The components are well-formed, whatever the guarded constants. *)
Fixpoint components_ok (m : model) (t : tree) (K : bindings) (q : query) : Prop :=
  match q with
  | QNil => True
  | QAtom a => atom_ok (Dim m) (bind_atom K a) /\ model_ok m t a
  | QNot q | QWith _ q => components_ok m t K q
  | QAnd q1 q2 | QOr q1 q2 => components_ok m t K q1 /\ components_ok m t K q2
  | QAll c q => forall e, is_node (Dim m) t e -> components_ok m t ((cID c, e) :: K) q
  end.

Definition no_sep (s : string) : Prop := no_char us s = true.

Record wf_query (m : model) (t : tree) (q : query) : Prop := {
  wf_scoped : scoped (block_vars q) [] [] q;
  wf_siblings : siblings_apart q;
  wf_negation : negation_plain q;
  wf_components : components_ok m t [] q;
  wf_names : Forall no_sep (all_vars q) /\ Forall no_sep (all_ids q)
}.
