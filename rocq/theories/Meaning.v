(* Specification of the components: what a predicate or extension means for an
   assignment of partial instances to variables.  Independent of the encoders;
   a component is only read for its arguments. *)
From Verif Require Import GoBase Query Atoms Spec.
Local Open Scope Z_scope.
Local Open Scope list_scope.

(* Assignments. *)
Definition env := string -> inst.

Definition holds (d : nat) (t : tree) (E : env) (a : atom) : Prop :=
  match a with
  | SubsVV v1 v2 => subsumed d (E v1) (E v2)
  | SubsVC v c => subsumed d (E v) (cVal c)
  | SubsCV c v => subsumed d (cVal c) (E v)
  | SubsCC c1 c2 => subsumed d (cVal c1) (cVal c2)
  | LelVV v1 v2 _ => level_le d (E v1) (E v2)
  | LelVC v c _ => level_le d (E v) (cVal c)
  | LelCV c v _ => level_le d (cVal c) (E v)
  | LelCC c1 c2 => level_le d (cVal c1) (cVal c2)
  | NodeV v _ => is_node d t (E v)
  | NodeC c => is_node d t (cVal c)
  | FullV v => full d (E v)
  | FullC c => full d (cVal c)
  | ConsVV v1 v2 => consistent d (E v1) (E v2)
  | ConsVC v c => consistent d (E v) (cVal c)
  | ConsCV c v => consistent d (cVal c) (E v)
  | ConsCC c1 c2 => consistent d (cVal c1) (cVal c2)
  | AllV v b _ => all_comp d t b (E v)
  | AllC c b => all_comp d t b (cVal c)
  | DfsV v => determinant d t (E v)
  | DfsC c => determinant d t (cVal c)
  | HeprVV v1 v2 pref _ => preferred pref (E v1) (E v2)
  | HeprVC v c pref _ => preferred pref (E v) (cVal c)
  | HeprCV c v pref _ => preferred pref (cVal c) (E v)
  | HeprCC c1 c2 pref => preferred pref (cVal c1) (cVal c2)
  | LehVVV v1 v2 v3 _ _ => leh d (E v1) (E v2) (E v3)
  | LehVVC v1 v2 c _ _ => leh d (E v1) (E v2) (cVal c)
  | LehVCV v1 c v2 _ _ => leh d (E v1) (cVal c) (E v2)
  | LehCVV c v1 v2 _ => leh d (cVal c) (E v1) (E v2)
  | LehVCC v c1 c2 _ => leh d (E v) (cVal c1) (cVal c2)
  | LehCVC c1 v c2 _ => leh d (cVal c1) (E v) (cVal c2)
  | LehCCV c1 c2 v _ => leh d (cVal c1) (cVal c2) (E v)
  | LehCCC c1 c2 c3 => leh d (cVal c1) (cVal c2) (cVal c3)
  end.

(* Variables and constants of a component. *)
Definition vars_of (a : atom) : list QVar :=
  match a with
  | SubsVV v1 v2 | LelVV v1 v2 _ | ConsVV v1 v2 | HeprVV v1 v2 _ _ => [v1; v2]
  | SubsVC v _ | SubsCV _ v | LelVC v _ _ | LelCV _ v _ | NodeV v _ | FullV v
  | ConsVC v _ | ConsCV _ v | AllV v _ _ | DfsV v | HeprVC v _ _ _ | HeprCV _ v _ _
  | LehVCC v _ _ _ | LehCVC _ v _ _ | LehCCV _ _ v _ => [v]
  | LehVVV v1 v2 v3 _ _ => [v1; v2; v3]
  | LehVVC v1 v2 _ _ _ | LehVCV v1 _ v2 _ _ | LehCVV _ v1 v2 _ => [v1; v2]
  | SubsCC _ _ | LelCC _ _ | NodeC _ | FullC _ | ConsCC _ _ | AllC _ _ | DfsC _
  | HeprCC _ _ _ | LehCCC _ _ _ => []
  end.
Definition consts_of (a : atom) : list QConst :=
  match a with
  | SubsVV _ _ | LelVV _ _ _ | ConsVV _ _ | HeprVV _ _ _ _ | NodeV _ _ | FullV _
  | AllV _ _ _ | DfsV _ | LehVVV _ _ _ _ _ => []
  | SubsVC _ c | SubsCV c _ | LelVC _ c _ | LelCV c _ _ | NodeC c | FullC c
  | ConsVC _ c | ConsCV c _ | AllC c _ | DfsC c | HeprVC _ c _ _ | HeprCV c _ _ _
  | LehVVC _ _ c _ _ | LehVCV _ c _ _ _ | LehCVV c _ _ _ => [c]
  | SubsCC c1 c2 | LelCC c1 c2 | ConsCC c1 c2 | HeprCC c1 c2 _
  | LehVCC _ c1 c2 _ | LehCVC c1 _ c2 _ | LehCCV c1 c2 _ _ => [c1; c2]
  | LehCCC c1 c2 c3 => [c1; c2; c3]
  end.

(* Renaming of the variables and replacement of the constants. *)
Definition map_atom (fv : QVar -> QVar) (fc : QConst -> QConst) (a : atom) : atom :=
  match a with
  | SubsVV v1 v2 => SubsVV (fv v1) (fv v2)
  | SubsVC v c => SubsVC (fv v) (fc c)
  | SubsCV c v => SubsCV (fc c) (fv v)
  | SubsCC c1 c2 => SubsCC (fc c1) (fc c2)
  | LelVV v1 v2 g => LelVV (fv v1) (fv v2) g
  | LelVC v c g => LelVC (fv v) (fc c) g
  | LelCV c v g => LelCV (fc c) (fv v) g
  | LelCC c1 c2 => LelCC (fc c1) (fc c2)
  | NodeV v g => NodeV (fv v) g
  | NodeC c => NodeC (fc c)
  | FullV v => FullV (fv v)
  | FullC c => FullC (fc c)
  | ConsVV v1 v2 => ConsVV (fv v1) (fv v2)
  | ConsVC v c => ConsVC (fv v) (fc c)
  | ConsCV c v => ConsCV (fc c) (fv v)
  | ConsCC c1 c2 => ConsCC (fc c1) (fc c2)
  | AllV v b g => AllV (fv v) b g
  | AllC c b => AllC (fc c) b
  | DfsV v => DfsV (fv v)
  | DfsC c => DfsC (fc c)
  | HeprVV v1 v2 p g => HeprVV (fv v1) (fv v2) p g
  | HeprVC v c p g => HeprVC (fv v) (fc c) p g
  | HeprCV c v p g => HeprCV (fc c) (fv v) p g
  | HeprCC c1 c2 p => HeprCC (fc c1) (fc c2) p
  | LehVVV v1 v2 v3 g h => LehVVV (fv v1) (fv v2) (fv v3) g h
  | LehVVC v1 v2 c g h => LehVVC (fv v1) (fv v2) (fc c) g h
  | LehVCV v1 c v2 g h => LehVCV (fv v1) (fc c) (fv v2) g h
  | LehCVV c v1 v2 g => LehCVV (fc c) (fv v1) (fv v2) g
  | LehVCC v c1 c2 g => LehVCC (fv v) (fc c1) (fc c2) g
  | LehCVC c1 v c2 g => LehCVC (fc c1) (fv v) (fc c2) g
  | LehCCV c1 c2 v g => LehCCV (fc c1) (fc c2) (fv v) g
  | LehCCC c1 c2 c3 => LehCCC (fc c1) (fc c2) (fc c3)
  end.

(* The variable generation functions are there. *)
Definition gens_ok (a : atom) : Prop :=
  match a with
  | LelVV _ _ g | LelVC _ _ g | LelCV _ _ g | NodeV _ g | AllV _ _ g => g <> None
  | HeprVV _ _ _ g | HeprVC _ _ _ g | HeprCV _ _ _ g => g <> None
  | LehVVV _ _ _ g h | LehVVC _ _ _ g h | LehVCV _ _ _ g h => g <> None /\ h <> None
  | LehCVV _ _ _ g | LehVCC _ _ _ g | LehCVC _ _ _ g | LehCCV _ _ _ g => g <> None
  | _ => True
  end.
(* A preference lists features, none twice; with a variable it is not empty. *)
Definition pref_valid (d : nat) (p : list Z) : Prop := Forall (in_range d) p /\ NoDup p.
Definition pref_ok (d : nat) (a : atom) : Prop :=
  match a with
  | HeprVV _ _ p _ | HeprVC _ _ p _ | HeprCV _ _ p _ => pref_valid d p /\ p <> []
  | HeprCC _ _ p => pref_valid d p
  | _ => True
  end.
(* LEH with two constants at distance d (0): the code answers True without
   looking at the variable. *)
Definition quirk_free (d : nat) (a : atom) : Prop :=
  match a with
  | LehCVC c1 _ c2 _ =>
      full d (cVal c1) -> full d (cVal c2) -> hamming d (cVal c1) (cVal c2) <> d
  | LehCCV c1 c2 _ _ =>
      full d (cVal c1) -> full d (cVal c2) -> cVal c1 <> cVal c2
  | _ => True
  end.
Definition atom_ok (d : nat) (a : atom) : Prop :=
  Forall (fun c => valid_inst d (cVal c)) (consts_of a) /\
  gens_ok a /\ pref_ok d a /\ quirk_free d a.

(* What a component asks of the model: those that look at it need a decision
   tree, those that count a positive dimension. *)
Definition model_ok (m : model) (t : tree) (a : atom) : Prop :=
  match a with
  | NodeV _ _ | NodeC _ | AllV _ _ _ | AllC _ _ | DfsV _ | DfsC _ => is_dtree m t
  | LelVV _ _ _ | LelVC _ _ _ | LelCV _ _ _
  | LehVVV _ _ _ _ _ | LehVVC _ _ _ _ _ | LehVCV _ _ _ _ _ | LehCVV _ _ _ _
  | LehVCC _ _ _ _ | LehCVC _ _ _ _ | LehCCV _ _ _ _ => (0 < Dim m)%nat
  | _ => True
  end.
