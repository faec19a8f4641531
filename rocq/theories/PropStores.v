(* Property C71: where the Go files write into slices and maps.  The semantics in
   GoLang.v treats a slice as a value, while in Go two slices may share an array.
   The difference can only show where an element is written: in an assignment to
   an element, in copy, and in append.  The theorems list all of these, as a
   property of the text read from the bytes (C68): all but a few write into a slice
   or map that the same function made, and on no path through the function does
   anything else refer to it when it is written; the few are those that C35
   (package cnf) and C51 (quantifiers) treat with arrays that are shared, and the
   state of contexts. *)
From Verif Require Import GoBase GoLang GoSource SrcBase GoParse GoElab GoText PropBytes Paths.
From Coq Require Import Bool.
Local Open Scope string_scope.
Local Open Scope Z_scope.
Local Open Scope list_scope.

(* ---- the statements and expressions of a text ---- *)

(* All statements, outermost first, with the conditions of if and for as statements. *)
Fixpoint parts (s : stmt) : list stmt :=
  s :: match s with
  | SIf a c t e => flat_map parts a ++ SExpr c :: flat_map parts t ++ flat_map parts e
  | SFor a c p b => flat_map parts a ++ SExpr c :: flat_map parts p ++ flat_map parts b
  | SRange _ _ _ b | SBlock b | SDefer b => flat_map parts b
  | _ => []
  end.
Definition statements (d : func) : list stmt := flat_map parts (fbody d).

(* All expressions in an expression, the outermost first. *)
Fixpoint within (e : expr) : list expr :=
  let fix all (l : list expr) := match l with [] => [] | a :: l' => within a ++ all l' end in
  let fix fields (l : list (string * expr)) := match l with [] => [] | a :: l' => within (snd a) ++ fields l' end in
  let o x := match x with Some x => within x | None => [] end in
  e :: match e with
  | XInt _ | XBool _ | XStr _ | XNil | XVar _ | XGlob _ | XMap => []
  | XSel e _ | XNeg e | XNot e | XDeref e | XNew e | XLen e | XIs e _ | XGen _ e | XFun _ e => within e
  | XIdx a b | XIdx2 a b | XBin _ a b | XMake a b | XAppS a b => within a ++ within b
  | XIdxZ a b c => within a ++ within b ++ within c
  | XSlc a lo hi => within a ++ o lo ++ o hi
  | XLst l | XCall _ l | XPrim _ l | XSys _ l => all l
  | XStc _ fs => fields fs
  | XApp a l | XDyn a l | XMeth a _ l => within a ++ all l
  end.
(* The expressions that stand directly in a statement. *)
Fixpoint in_lhs (l : lhs) : list expr :=
  match l with LBlank | LNew _ | LVar _ => [] | LSel l _ => in_lhs l | LIdx l i => in_lhs l ++ [i] | LDeref e => [e] end.
Definition directly (s : stmt) : list expr :=
  match s with
  | SAssign l r => flat_map in_lhs l ++ r
  | SExpr e => [e]
  | SRange _ _ e _ => [e]
  | SReturn es => es
  | SDelete m k => in_lhs m ++ [k]
  | SCopy d e => in_lhs d ++ [e]
  | _ => []
  end.

(* ---- stores ---- *)

(* The slice or map that an assignment to l writes into. *)
Fixpoint written (l : lhs) : list lhs :=
  match l with LIdx l _ => l :: written l | LSel l _ => written l | _ => [] end.
Definition stores (s : stmt) : list lhs :=
  match s with
  | SAssign l _ => flat_map written l
  | SDelete m _ => m :: written m
  | SCopy d _ => d :: written d
  | _ => []
  end.

(* What is assigned to the variable x. *)
Definition names (x : string) (l : lhs) : bool := match l with LNew y | LVar y => String.eqb x y | _ => false end.
Fixpoint paired (x : string) (l : list lhs) (r : list expr) : list expr :=
  match l, r with
  | a :: l', e :: r' => (if names x a then [e] else []) ++ paired x l' r'
  | _, _ => []
  end.
Definition assigned (x : string) (s : stmt) : list expr :=
  match s with
  | SAssign l r => if Nat.eqb (length l) (length r) then paired x l r else if existsb (names x) l then r else []
  | SRange k v e _ => if String.eqb x k || String.eqb x v then [e] else []
  | _ => []
  end.

(* Expressions with a slice or map that nothing else refers to: make and composite
   literals, x itself with more or fewer elements, and calls of functions that return such. *)
Definition fresh (makers : list string) (x : string) (e : expr) : bool :=
  match e with
  | XMake _ _ | XMap | XLst _ => true
  | XApp (XVar y) _ | XSlc (XVar y) _ _ => String.eqb x y
  | XCall f _ => existsb (String.eqb f) makers
  | _ => false
  end.
(* The function makes the slice or map that x is. *)
Definition makes (makers : list string) (d : func) (x : string) : Prop :=
  ~ In x (fparams d) /\ flat_map (assigned x) (statements d) <> [] /\
  forall e, In e (flat_map (assigned x) (statements d)) -> fresh makers x e = true.
(* A function that returns a slice it made, and nothing else. *)
Definition maker (d : func) : Prop := exists x, makes [] d x /\
  forall s es, In s (statements d) -> s = SReturn es -> es = [XVar x].

(* The only stores elsewhere: the state of the context, and that of the iterator of a
   quantifier. *)
Definition kept : list (string * lhs) :=
  [("query.baseScoper.AddVar", LSel (LVar "s") "vars");       (* query/scoper.go:77 *)
   ("query.baseScoper.PopScope", LSel (LVar "s") "vars");     (* query/scoper.go:100 *)
   ("query.baseScoper.SetScope", LSel (LVar "s") "scopes");   (* query/scoper.go:114-115 *)
   ("query.baseVarManager.CNFVar", LSel (LVar "vm") "vars");  (* query/varmanager.go:54 *)
   ("logop.nodeAsValuesIter.Next", LSel (LVar "i") "walk");   (* forallguarded.go:107-133 *)
   ("logop.nodeAsValuesIter.Next", LDeref (XSel (XVar "i") "t"))].

Definition params_ok (x : string) (d : func) : bool := negb (existsb (String.eqb x) (fparams d)).
Definition makesb (makers : list string) (d : func) (x : string) : bool :=
  params_ok x d && negb (match flat_map (assigned x) (statements d) with [] => true | _ => false end) && forallb (fresh makers x) (flat_map (assigned x) (statements d)).
Lemma makesb_ok makers d x : makesb makers d x = true -> makes makers d x.
Proof.
  unfold makesb, makes, params_ok. intros H. apply andb_true_iff in H. destruct H as (H & A). apply andb_true_iff in H. destruct H as (H & B).
  rewrite forallb_forall in A. repeat split; [|destruct (flat_map _ _); discriminate|exact A].
  intros I. apply negb_true_iff in H. assert (X : existsb (String.eqb x) (fparams d) = true) by (apply existsb_exists; exists x; split; [exact I|apply String.eqb_refl]). congruence.
Qed.

Fixpoint lhs_eqb (a b : lhs) : bool :=
  match a, b with
  | LVar x, LVar y => String.eqb x y
  | LSel a x, LSel b y => lhs_eqb a b && String.eqb x y
  | LDeref (XSel (XVar x) f), LDeref (XSel (XVar y) g) => String.eqb x y && String.eqb f g
  | _, _ => false
  end.
Lemma lhs_eqb_ok a b : lhs_eqb a b = true -> a = b.
Proof.
  revert b. induction a; intros b H; destruct b; cbn in H; try discriminate H;
    repeat match goal with
    | H : andb _ _ = true |- _ => apply andb_true_iff in H; destruct H
    | H : String.eqb _ _ = true |- _ => apply String.eqb_eq in H; subst
    | H : match ?e with _ => _ end = true |- _ => destruct e; try discriminate H
    end; try reflexivity.
  f_equal. apply IHa. assumption.
Qed.

Definition the_makers : list string := ["isnode.newVisitRecord"].
Definition store_ok (f : string) (d : func) (l : lhs) : bool :=
  match l with LVar x => makesb the_makers d x | _ => existsb (fun p => String.eqb f (fst p) && lhs_eqb l (snd p)) kept end.

(* Every element that a function of the files writes (by assignment, delete or copy)
   is one of a slice or map that the function made, or of the state of a context or
   of an iterator. *)
Theorem C71_stores : exists P, load repo_text = Some P /\
  (forall f d s l, In (f, d) (p_funcs P) -> In s (statements d) -> In l (stores s) ->
    (exists x, l = LVar x /\ makes the_makers d x) \/ In (f, l) kept) /\
  (forall f, In f the_makers -> exists d, In (f, d) (p_funcs P) /\ maker d).
Proof.
  exists prog. split; [exact load_repo|]. split.
  - assert (A : forallb (fun p => forallb (fun s => forallb (store_ok (fst p) (snd p)) (stores s)) (statements (snd p))) (p_funcs prog) = true) by (vm_compute; reflexivity).
    intros f d s l I Is Il. rewrite forallb_forall in A. specialize (A _ I). cbn [fst snd] in A.
    rewrite forallb_forall in A. specialize (A _ Is). rewrite forallb_forall in A. specialize (A _ Il).
    assert (K : existsb (fun p => String.eqb f (fst p) && lhs_eqb l (snd p)) kept = true -> In (f, l) kept).
    { intros X. apply existsb_exists in X. destruct X as ((g & k) & X & Y). apply andb_true_iff in Y. cbn in Y. destruct Y as (Y & Z).
      apply String.eqb_eq in Y. apply lhs_eqb_ok in Z. subst. exact X. }
    destruct l; try (right; exact (K A)). left. eexists. split; [reflexivity|]. apply makesb_ok, A.
  - intros f [<-|[]]. eexists. split.
    + assert (X : find_func prog "isnode.newVisitRecord" <> None) by (vm_compute; discriminate).
      destruct (find_func prog "isnode.newVisitRecord") as [d|] eqn:E; [|congruence].
      instantiate (1 := ltac:(let d := eval vm_compute in (match find_func prog "isnode.newVisitRecord" with Some d => d | None => mkFunc [] [] false [] end) in exact d)).
      clear X E d. assert (X : existsb (fun p => String.eqb (fst p) "isnode.newVisitRecord") (p_funcs prog) = true) by (vm_compute; reflexivity).
      clear X. vm_compute. repeat (first [left; reflexivity | right]).
    + exists "vr". split; [apply makesb_ok; vm_compute; reflexivity|].
      intros s es I ->. vm_compute in I. repeat (destruct I as [I|I]; [try discriminate I; injection I as <-; reflexivity|]). destruct I.
Qed.
Print Assumptions C71_stores.

(* ---- along every path ---- *)

(* Functions that only read the slices they are given. *)
Definition the_readers : list string := ["isnode.allFeatsVisited"].

(* The expression uses the variable x itself, not just its length or an element of it,
   nor in a call of a function that only reads it. *)
Fixpoint loose (x : string) (e : expr) : bool :=
  let fix all (l : list expr) := match l with [] => false | a :: l' => loose x a || all l' end in
  let fix inner (l : list expr) := match l with [] => false | XVar _ :: l' => inner l' | a :: l' => loose x a || inner l' end in
  let fix fields (l : list (string * expr)) := match l with [] => false | a :: l' => loose x (snd a) || fields l' end in
  let o y := match y with Some y => loose x y | None => false end in
  let base y := match y with XVar _ => false | _ => loose x y end in
  match e with
  | XVar y => String.eqb x y
  | XInt _ | XBool _ | XStr _ | XNil | XGlob _ | XMap => false
  | XLen e => base e
  | XIdx a b | XIdx2 a b => base a || loose x b
  | XIdxZ a b c => base a || loose x b || loose x c
  | XSel e _ | XNeg e | XNot e | XDeref e | XNew e | XIs e _ | XGen _ e | XFun _ e => loose x e
  | XBin _ a b | XMake a b | XAppS a b => loose x a || loose x b
  | XSlc a lo hi => loose x a || o lo || o hi
  | XCall f l => if existsb (String.eqb f) the_readers then inner l else all l
  | XLst l | XPrim _ l | XSys _ l => all l
  | XStc _ fs => fields fs
  | XApp a l | XDyn a l | XMeth a _ l => loose x a || all l
  end.

(* x = append(x, ..) and x = x[a:b]. *)
Definition grown (x : string) (s : stmt) : option (list expr) :=
  match s with
  | SAssign [LVar y] [XApp (XVar z) l] => if String.eqb x y && String.eqb x z then Some l else None
  | SAssign [LVar y] [XAppS (XVar z) l] => if String.eqb x y && String.eqb x z then Some [l] else None
  | _ => None
  end.
Definition cut (x : string) (s : stmt) : option (list expr) :=
  match s with
  | SAssign [LVar y] [XSlc (XVar z) lo hi] => if String.eqb x y && String.eqb x z then Some ((match lo with Some e => [e] | None => [] end) ++ (match hi with Some e => [e] | None => [] end)) else None
  | _ => None
  end.
(* Something else may come to refer to x: copy takes only its elements. *)
Definition uses (x : string) (s : stmt) : bool :=
  match grown x s, cut x s with
  | Some l, _ | _, Some l => existsb (loose x) l
  | None, None => match s with
                  | SCopy d (XVar _) => existsb (loose x) (in_lhs d)
                  | _ => existsb (loose x) (directly s)
                  end
  end.
Definition writes (x : string) (s : stmt) : bool :=
  match grown x s with Some _ => true | None => existsb (fun l => match l with LVar y => String.eqb x y | _ => false end) (stores s) end.
Definition remade (x : string) (s : stmt) : bool :=
  match grown x s, cut x s with None, None => match assigned x s with [] => false | _ => true end | _, _ => false end.
Definition flag (b : bool) (e : event) : list event := if b then [e] else [].
Definition events (x : string) (s : stmt) : list event := flag (uses x s) Used ++ flag (writes x s) Written ++ flag (remade x s) Made.
Definition in_cond (x : string) (e : expr) : list event := flag (loose x e) Used.

(* x is one variable, and deferred calls have nothing to do with it. *)
Definition declared (x : string) (s : stmt) : nat :=
  match s with
  | SAssign l _ => length (filter (fun l => match l with LNew y => String.eqb x y | _ => false end) l)
  | SRange k v _ _ => (if String.eqb x k || String.eqb x v then 2 else 0)%nat
  | _ => 0%nat
  end.
Definition deferred (s : stmt) : list stmt := match s with SDefer b => flat_map parts b | _ => [] end.
Definition single (d : func) (x : string) : Prop :=
  (list_sum (map (declared x) (statements d)) <= 1)%nat /\
  forall s u, In s (statements d) -> In u (deferred s) -> events x u = [] /\ (forall c, u = SExpr c -> in_cond x c = []).
Definition written_names (d : func) : list string :=
  flat_map (fun s => flat_map (fun l => match l with LVar x => [x] | _ => [] end) (stores s) ++
                     match s with SAssign [LVar x] [XApp (XVar y) _] | SAssign [LVar x] [XAppS (XVar y) _] => if String.eqb x y then [x] else [] | _ => [] end) (statements d).

(* A function that only reads its parameters: it goes through them with range. *)
Definition reader (d : func) : Prop :=
  forall x, In x (fparams d) -> ~ In x (written_names d) /\
  forall s, In s (statements d) -> uses x s = true -> exists k v b, s = SRange k v (XVar x) b.
Definition readerb (d : func) : bool :=
  forallb (fun x => negb (existsb (String.eqb x) (written_names d)) &&
    forallb (fun s => negb (uses x s) || match s with SRange _ _ (XVar y) _ => String.eqb x y | _ => false end) (statements d)) (fparams d).
Lemma readerb_ok d : readerb d = true -> reader d.
Proof.
  unfold readerb, reader. rewrite forallb_forall. intros H x I. specialize (H x I). apply andb_true_iff in H. destruct H as (A & B). split.
  - intros J. apply negb_true_iff in A. assert (X : existsb (String.eqb x) (written_names d) = true) by (apply existsb_exists; exists x; split; [exact J|apply String.eqb_refl]). congruence.
  - intros s Is U. rewrite forallb_forall in B. specialize (B s Is). rewrite U in B. cbn in B. destruct s; try discriminate B. destruct e; try discriminate B.
    apply String.eqb_eq in B. subst. eauto.
Qed.

Definition singleb (d : func) (x : string) : bool :=
  (list_sum (map (declared x) (statements d)) <=? 1)%nat &&
  forallb (fun s => forallb (fun u => match events x u with [] => true | _ => false end && match u with SExpr c => match in_cond x c with [] => true | _ => false end | _ => true end) (deferred s)) (statements d).
Lemma singleb_ok d x : singleb d x = true -> single d x.
Proof.
  unfold singleb, single. intros H. apply andb_true_iff in H. destruct H as (A & B). split; [apply Nat.leb_le, A|]. intros s u Is Iu.
  rewrite forallb_forall in B. specialize (B s Is). rewrite forallb_forall in B. specialize (B u Iu). apply andb_true_iff in B. destruct B as (B & C).
  split; [destruct (events x u); [reflexivity|discriminate B]|]. intros c ->. destruct (in_cond x c); [reflexivity|discriminate C].
Qed.

(* Every slice or map in a variable that a function of the files writes into is made by
   that function, and on every path through the function nothing refers to it when it
   is written: what came to refer to it did so before it was last made. *)
Theorem C71_paths : exists P, load repo_text = Some P /\
  (forall f d x, In (f, d) (p_funcs P) -> In x (written_names d) ->
    makes the_makers d x /\ single d x /\
    forall t l, block (events x) (in_cond x) (in_cond x) None (fbody d) t l -> unshared false t) /\
  (forall f, In f the_readers -> exists d, find_func P f = Some d /\ reader d).
Proof.
  exists prog. split; [exact load_repo|]. split.
  - assert (A : forallb (fun p => forallb (fun x => makesb the_makers (snd p) x && singleb (snd p) x && checked (events x) (in_cond x) (in_cond x) (fbody (snd p))) (written_names (snd p))) (p_funcs prog) = true) by (vm_compute; reflexivity).
    intros f d x I Ix. rewrite forallb_forall in A. specialize (A _ I). cbn [fst snd] in A. rewrite forallb_forall in A. specialize (A _ Ix).
    apply andb_true_iff in A. destruct A as (A & C). apply andb_true_iff in A. destruct A as (A & B).
    split; [exact (makesb_ok _ _ _ A)|]. split; [exact (singleb_ok _ _ B)|]. exact (checked_ok _ _ _ _ C).
  - intros f [<-|[]]. eexists. split; [vm_compute; reflexivity|]. apply readerb_ok. vm_compute. reflexivity.
Qed.
Print Assumptions C71_paths.

(* The paths are those of the runs: whatever the values, a run of the body that ends
   follows one. *)
Theorem C71_runs : forall x kind embedded globals call fuel ss st fl st',
  run_block (exec kind embedded globals call fuel) None ss st = (Ok fl, st') ->
  exists t, block (events x) (in_cond x) (in_cond x) None ss t (leave_of fl).
Proof.
  intros x kind embedded globals call fuel ss st fl st' H. eapply follow_block; [|exact H].
  clear H. induction ss as [|s r IH]; constructor; [apply run_follows|exact IH].
Qed.
Print Assumptions C71_runs.

(* ---- in a memory with arrays ---- *)

(* Arrays by number; x refers to one of them or to none, and what else there is (other
   variables, fields, elements, results) to those held. *)
Record memory := mkMem { arrays : nat -> list Z; next : nat; mine : option nat; held : list nat }.
Definition put (f : nat -> list Z) (a : nat) (l : list Z) : nat -> list Z := fun b => if Nat.eqb a b then l else f b.
(* What an event may do: x gets a new array; something else refers to the array of x, or
   does not; the array of x gets other contents, or x gets a larger array, as with append. *)
Inductive does : event -> memory -> memory -> Prop :=
| D_made : forall m l, does Made m (mkMem (put (arrays m) (next m) l) (S (next m)) (Some (next m)) (held m))
| D_kept : forall m a, mine m = Some a -> does Used m (mkMem (arrays m) (next m) (mine m) (a :: held m))
| D_read : forall m, does Used m m
| D_write : forall m a l, mine m = Some a -> does Written m (mkMem (put (arrays m) a l) (next m) (mine m) (held m))
| D_grow : forall m l, does Written m (mkMem (put (arrays m) (next m) l) (S (next m)) (Some (next m)) (held m)).
Inductive follows : list event -> memory -> memory -> Prop :=
| F_end : forall m, follows [] m m
| F_more : forall e t m m1 m2, does e m m1 -> follows t m1 m2 -> follows (e :: t) m m2.
Definition sound (m : memory) : Prop :=
  (forall a, mine m = Some a -> (a < next m)%nat) /\ (forall a, In a (held m) -> (a < next m)%nat).
(* when the function starts, x has no array yet *)
Definition at_start (m : memory) : Prop := mine m = None /\ sound m.

Lemma put_other f a l b : a <> b -> put f a l b = f b.
Proof. intros N. unfold put. destruct (Nat.eqb a b) eqn:E; [apply Nat.eqb_eq in E; contradiction|reflexivity]. Qed.
(* one event: what is held elsewhere stays, if the array of x is not among them when written *)
Lemma does_keeps e m m' : does e m m' -> sound m -> forall d, (forall a, mine m = Some a -> In a (held m) -> d = true) -> unshared d [e] ->
  sound m' /\ incl (held m) (held m') /\ (forall a, In a (held m) -> arrays m' a = arrays m a) /\
  (forall a, mine m' = Some a -> In a (held m') -> after d [e] = true).
Proof.
  intros H (S1 & S2) d D U. destruct H as [m l|m a A|m|m a l A|m l]; cbn [unshared after] in *; unfold sound; cbn [arrays next mine held] in *.
  - split; [split; [intros a [= <-]; lia|intros a I; specialize (S2 a I); lia]|]. split; [apply incl_refl|]. split.
    + intros a I. apply put_other. specialize (S2 a I). lia.
    + intros a [= <-] I. specialize (S2 _ I). lia.
  - split; [split; [exact S1|]; intros b [<-|I]; [exact (S1 _ A)|exact (S2 _ I)]|]. split; [intros b I; now right|]. split; [reflexivity|reflexivity].
  - split; [split; assumption|]. split; [apply incl_refl|]. split; [reflexivity|reflexivity].
  - destruct U as (-> & _). split; [split; assumption|]. split; [apply incl_refl|]. split; [|exact D].
    intros b I. apply put_other. intros ->. discriminate (D b A I).
  - destruct U as (-> & _). split; [split; [intros a [= <-]; lia|intros a I; specialize (S2 a I); lia]|]. split; [apply incl_refl|]. split.
    + intros a I. apply put_other. specialize (S2 a I). lia.
    + intros a [= <-] I. specialize (S2 _ I). lia.
Qed.
Lemma follows_keeps t : forall m m', follows t m m' -> sound m -> forall d, (forall a, mine m = Some a -> In a (held m) -> d = true) -> unshared d t ->
  sound m' /\ (forall a, In a (held m) -> arrays m' a = arrays m a) /\ (forall a, mine m' = Some a -> In a (held m') -> after d t = true).
Proof.
  induction t as [|e t IH]; intros m m' F S d D U; inversion F as [|? ? ? m1 ? E F']; subst; [now auto|].
  assert (U1 : unshared d [e] /\ unshared (after d [e]) t) by (destruct e; cbn in *; tauto). destruct U1 as (U1 & U2).
  destruct (does_keeps _ _ _ E S d D U1) as (S1 & I1 & K1 & D1). destruct (IH _ _ F' S1 _ D1 U2) as (S2 & K2 & D2).
  split; [exact S2|]. split; [|destruct e; exact D2]. intros a I. now rewrite (K2 a (I1 a I)), (K1 a I).
Qed.
Lemma unshared_split d t1 t2 : unshared d (t1 ++ t2) -> unshared d t1 /\ unshared (after d t1) t2.
Proof. revert d. induction t1 as [|[] t1 IH]; intros d H; cbn in *; [now split|apply IH, H..|]. destruct H as (A & H). destruct (IH _ H). auto. Qed.

(* So on every path, at every point, the arrays that anything else refers to keep their
   contents, whatever the function writes into x afterwards: a slice as a value has the same
   elements as the slice in memory. *)
Theorem C71_arrays : exists P, load repo_text = Some P /\
  forall f d x t l t1 t2 m m1 m2, In (f, d) (p_funcs P) -> In x (written_names d) ->
    block (events x) (in_cond x) (in_cond x) None (fbody d) t l -> t = t1 ++ t2 ->
    at_start m -> follows t1 m m1 -> follows t2 m1 m2 ->
    forall a, In a (held m1) -> arrays m2 a = arrays m1 a.
Proof.
  destruct C71_paths as (P & E & H & _). exists P. split; [exact E|]. intros f d x t l t1 t2 m m1 m2 I Ix B -> (N & S) F1 F2.
  destruct (H f d x I Ix) as (_ & _ & U). specialize (U _ _ B). destruct (unshared_split _ _ _ U) as (U1 & U2).
  destruct (follows_keeps _ _ _ F1 S false ltac:(intros a A; congruence) U1) as (S1 & _ & D1).
  exact (proj1 (proj2 (follows_keeps _ _ _ F2 S1 _ D1 U2))).
Qed.
Print Assumptions C71_arrays.

(* ---- append ---- *)

Definition appended (e : expr) : list expr := match e with XApp a _ | XAppS a _ => [a] | _ => [] end.
Definition appends (s : stmt) : list expr := flat_map appended (flat_map within (directly s)).
(* x = append(x, ..), with no other append in it, for an x that the function makes. *)
Definition grows (d : func) (s : stmt) : Prop := exists x l r, s = SAssign [l] [r] /\ (l = LVar x \/ l = LNew x) /\
  appended r = [XVar x] /\ appends s = [XVar x] /\ makes [] d x.

(* The only other appends: to the clauses of a formula (C35), to the value that is
   read, to the scopes of a context, and to a clause of a slice the function made. *)
Definition known_appends : list (string * list expr) :=
  [("cnf.CNF.tseytinNegation", [XVar "clauses"; XVar "clause"]);                                      (* cnf/cnf.go:128 *)
   ("cnf.CNF.tseytinNegation", [XSel (XVar "c") "cClauses"]);                                         (* cnf/cnf.go:136 *)
   ("cnf.CNF.addNegationIFFClauses", [XSel (XVar "c") "cClauses"]);                                   (* cnf/cnf.go:155 *)
   ("cnf.CNF.addNegationIFFClauses", [XSel (XVar "c") "cClauses"; XVar "enclits"]);                   (* cnf/cnf.go:158 *)
   ("cnf.CNF.AppendSemantics", [XSel (XVar "c") "sClauses"]);                                         (* cnf/cnf.go:176 *)
   ("cnf.CNF.AppendConsistency", [XSel (XVar "c") "cClauses"]);                                       (* cnf/cnf.go:187 *)
   ("compute.varValueFromBytes", [XSel (XVar "c") "Val"]);                                            (* compute/solver.go:166-174 *)
   ("query.baseScoper.AddScope", [XSel (XVar "s") "scopes"]);                                         (* query/scoper.go:90 *)
   ("isnode.Var.Encoding", [XIdx (XVar "fcl") (XSel (XVar "node") "Feat")])].                         (* isnode/var.go:52 *)

Definition growsb (d : func) (s : stmt) : bool :=
  match s with
  | SAssign [l] [r] => match l, appended r, appends s with
    | LVar x, [XVar y], [XVar z] | LNew x, [XVar y], [XVar z] => String.eqb x y && String.eqb x z && makesb [] d x
    | _, _, _ => false
    end
  | _ => false
  end.
Lemma growsb_ok d s : growsb d s = true -> grows d s.
Proof.
  unfold growsb, grows. intros H. destruct s as [l r| | | | | | | | | | | | |]; try discriminate H. destruct l as [|l [|? ?]]; try discriminate H. destruct r as [|r [|? ?]]; try discriminate H.
  assert (K : forall x, match appended r, appends (SAssign [l] [r]) with [XVar y], [XVar z] => String.eqb x y && String.eqb x z && makesb [] d x | _, _ => false end = true ->
    appended r = [XVar x] /\ appends (SAssign [l] [r]) = [XVar x] /\ makes [] d x).
  { clear. intros x H. destruct (appended r) as [|[] [|? ?]]; try discriminate H. destruct (appends (SAssign [l] [r])) as [|[] [|? ?]]; try discriminate H.
    apply andb_true_iff in H. destruct H as (H & M). apply andb_true_iff in H. destruct H as (A & B). apply String.eqb_eq in A, B. subst. auto using makesb_ok. }
  destruct l as [|x|x| | |]; try discriminate H; exists x; eexists _, r; (split; [reflexivity|]); (split; [auto|]); apply K; exact H.
Qed.
Definition others (p : string * func) : list (string * list expr) :=
  flat_map (fun s => if growsb (snd p) s then [] else match appends s with [] => [] | l => [(fst p, l)] end) (statements (snd p)).
Lemma others_listed : incl (flat_map others source) known_appends.
Proof.
  vm_compute. intros a I.
  repeat (destruct I as [<-|I]; [repeat (first [left; reflexivity | right])|]). destruct I.
Qed.
Theorem C71_appends : exists P, load repo_text = Some P /\
  forall f d s, In (f, d) (p_funcs P) -> In s (statements d) -> appends s <> [] ->
    grows d s \/ In (f, appends s) known_appends.
Proof.
  exists prog. split; [exact load_repo|]. intros f d s I Is U. destruct (growsb d s) eqn:G; [left; exact (growsb_ok _ _ G)|right].
  apply others_listed. apply in_flat_map. exists (f, d). split; [exact I|]. unfold others. cbn [fst snd].
    apply in_flat_map. exists s. split; [exact Is|]. rewrite G. destruct (appends s); [congruence|left; reflexivity].
Qed.
Print Assumptions C71_appends.

(* ---- texts that share ---- *)

(* The conditions reject texts in which slices share an array: b is not made here (compare
   GoTests.v, test_sharing_differs); *)
Definition sharing : func := mkFunc [] [("", XInt 0)] false
  [SAssign [LNew "a"] [XLst [XInt 1]]; SAssign [LNew "b"] [XVar "a"]; SAssign [LIdx (LVar "b") (XInt 0)] [XInt 5]; SReturn [XIdx (XVar "a") (XInt 0)]].
(* here a is made, but b refers to it when it is written; *)
Definition sharing2 : list stmt :=
  [SAssign [LNew "a"] [XLst [XInt 1]]; SAssign [LNew "b"] [XVar "a"]; SAssign [LIdx (LVar "a") (XInt 0)] [XInt 5]; SReturn [XIdx (XVar "b") (XInt 0)]].
(* and leafsAsConsts of dfs/utils.go would share all its results if it made tmp before the
   loop: on the path with two turns the first result is overwritten. *)
Definition once : list stmt :=
  [SAssign [LNew "tmp"] [XMake (XInt 0) (XVar "dim")];
   SFor [] (XBool true) [] [SCopy (LVar "tmp") (XVar "cv"); SAssign [LVar "pleaf"] [XApp (XVar "pleaf") [XVar "tmp"]]]].
Definition each_time : list stmt :=
  [SFor [] (XBool true) [] [SAssign [LNew "tmp"] [XMake (XInt 0) (XVar "dim")]; SCopy (LVar "tmp") (XVar "cv"); SAssign [LVar "pleaf"] [XApp (XVar "pleaf") [XVar "tmp"]]]].
Definition shares (x : string) (ss : list stmt) : Prop := exists t l, block (events x) (in_cond x) (in_cond x) None ss t l /\ ~ unshared false t.
Example C71_case :
  (flat_map stores (statements sharing) = [LVar "b"] /\ ~ makes the_makers sharing "b") /\
  shares "a" sharing2 /\ shares "tmp" once /\ ~ shares "tmp" each_time /\
  (exists d, find_func prog "dfs.leafsAsConsts" = Some d /\ nodup string_dec (written_names d) = ["cv"; "walk"; "tmp"; "pleaf"; "nleaf"] /\ makes [] d "tmp") /\
  length (filter (fun p => negb (match written_names (snd p) with [] => true | _ => false end)) source) = 27%nat.
Proof.
  split; [split; [reflexivity|intros (_ & _ & H); specialize (H (XVar "a") ltac:(vm_compute; auto)); discriminate H]|].
  split; [|split; [|split; [|split; [|vm_compute; reflexivity]]]].
  - eexists _, _. split.
    + do 3 (eapply B_next; [apply P_simple; reflexivity|]). eapply B_out; [apply P_simple; reflexivity|discriminate|discriminate].
    + vm_compute. intros (H & _). discriminate H.
  - assert (B : block (events "tmp") (in_cond "tmp") (in_cond "tmp") None [SCopy (LVar "tmp") (XVar "cv"); SAssign [LVar "pleaf"] [XApp (XVar "pleaf") [XVar "tmp"]]] [Written; Used] LvNext).
    { apply (B_next (events "tmp") (in_cond "tmp") (in_cond "tmp") _ _ [Written] [Used]); [exact (P_simple _ _ _ (SCopy (LVar "tmp") (XVar "cv")) LvNext eq_refl)|].
      apply (B_next (events "tmp") (in_cond "tmp") (in_cond "tmp") _ _ [Used] []); [exact (P_simple _ _ _ (SAssign [LVar "pleaf"] [XApp (XVar "pleaf") [XVar "tmp"]]) LvNext eq_refl)|constructor]. }
    eexists _, _. split.
    + eapply B_next; [apply P_simple; reflexivity|]. eapply B_next; [|apply B_end]. eapply P_for; [apply B_end|].
      eapply T_next; [exact B|reflexivity|apply B_end|]. eapply T_next; [exact B|reflexivity|apply B_end|]. apply T_end.
    + vm_compute. intros (_ & H & _). discriminate H.
  - intros (t & l & H & N). apply N. refine (checked_ok _ _ _ _ _ _ _ H). vm_compute. reflexivity.
  - eexists. split; [vm_compute; reflexivity|]. split; [vm_compute; reflexivity|]. apply makesb_ok. vm_compute. reflexivity.
Qed.
(* In memory: with tmp made once, the second turn changes what the first turn handed out. *)
Example C71_arrays_case : exists t l t1 t2 m m1 m2 a,
  block (events "tmp") (in_cond "tmp") (in_cond "tmp") None once t l /\ t = t1 ++ t2 /\ at_start m /\ follows t1 m m1 /\ follows t2 m1 m2 /\
  In a (held m1) /\ arrays m1 a = [1] /\ arrays m2 a = [2].
Proof.
  assert (B : block (events "tmp") (in_cond "tmp") (in_cond "tmp") None [SCopy (LVar "tmp") (XVar "cv"); SAssign [LVar "pleaf"] [XApp (XVar "pleaf") [XVar "tmp"]]] [Written; Used] LvNext).
  { apply (B_next (events "tmp") (in_cond "tmp") (in_cond "tmp") _ _ [Written] [Used]); [exact (P_simple _ _ _ (SCopy (LVar "tmp") (XVar "cv")) LvNext eq_refl)|].
    apply (B_next (events "tmp") (in_cond "tmp") (in_cond "tmp") _ _ [Used] []); [exact (P_simple _ _ _ (SAssign [LVar "pleaf"] [XApp (XVar "pleaf") [XVar "tmp"]]) LvNext eq_refl)|constructor]. }
  eexists _, _, [Made; Written; Used], [Written; Used], (mkMem (fun _ => []) 0 None []), _, _, 0%nat. split; [|split; [|split; [|split; [|split; [|split; [|split]]]]]].
  - eapply B_next; [apply P_simple; reflexivity|]. eapply B_next; [|apply B_end]. eapply P_for; [apply B_end|].
    eapply T_next; [exact B|reflexivity|apply B_end|]. eapply T_next; [exact B|reflexivity|apply B_end|]. apply T_end.
  - vm_compute. reflexivity.
  - split; [reflexivity|]. split; cbn; [discriminate|intros a []].
  - eapply F_more; [apply (D_made _ [0])|]. eapply F_more; [apply (D_write _ 0%nat [1]); reflexivity|]. eapply F_more; [apply D_kept; reflexivity|]. apply F_end.
  - eapply F_more; [apply (D_write _ 0%nat [2]); reflexivity|]. eapply F_more; [apply D_read|]. apply F_end.
  - cbn. now left.
  - reflexivity.
  - reflexivity.
Qed.
