(* Properties C63 and C64: the text of every component and operator against the
   model, and what that says of the text alone.  GoSource.v is the text (printed by
   tools/go2coq.py), GoLang.v says what programs of the language do; neither
   mentions the model. *)
From Verif Require Import GoBase GoLemmas Cnf CnfSem Query QueryLemmas Walk Atoms Logop Spec Sat GoLang GoSource SrcBase SrcLemmas SrcCnf SrcQuery SrcCtx SrcLogop Outcome Evolve Errors Form TreeLemmas Names Ground Meaning Master Truth FirstOrder AtomCnf Total PropContext PropTruth.
Local Open Scope string_scope.
Local Open Scope Z_scope.
Local Open Scope list_scope.

(* Calls that nest and turns of loops a query needs: from this number on the
   results do not depend on it. *)
Definition text_fuel (q : query) (c : ctx) : nat :=
  (levels (cScoper c) + length (scopes (cScoper c)) + Dim (cModel c) + 3 * length (Nodes (cModel c)) + 3 * qheight q + 8)%nat.

(* q.Encoding(ctx) with ctx a pointer to the first cell of the heap; g is the rest
   of it, k what the call leaves behind. *)
Theorem C63_query : forall q c g n,
  q <> QNil -> NoDup (map fst (svars (cScoper c))) -> (text_fuel q c <= n)%nat ->
  match enc q c with
  | (Ok f, c') => exists k, go_encoding n q (v_ctx c :: g) = (Ok [v_cnf f; VNil], v_ctx c' :: g ++ k)
  | (Err e, c') => exists f k, go_encoding n q (v_ctx c :: g) = (Ok [v_cnf f; VErr e []], v_ctx c' :: g ++ k)
  | (Panic, _) => fst (go_encoding n q (v_ctx c :: g)) = Panic
  | (Hang, _) => fst (go_encoding n q (v_ctx c :: g)) = Hang
  end.
Proof.
  intros q [s vm m] g n Hq Hd Hn. unfold text_fuel in Hn. cbn [cScoper cModel] in *.
  apply (go_query q Hq (levels s + length (scopes s) + qheight q)%nat n s vm m g).
  - repeat split; [exact Hd | cbn [cScoper]; lia].
  - lia.
  - unfold base_fuel. lia.
Qed.
Print Assumptions C63_query.

(* Without a context. *)
Theorem C63_nil_context : forall q h n, q <> QNil -> (3 <= n)%nat ->
  exists e, enc_nilctx q = Err e
    /\ gocall n (type_of (v_query q) ++ ".Encoding") [v_query q; VNil] h = (Ok [v_cnf TrueCNF; VErr e []], h).
Proof.
  intros q h n Hq Hn. pose proof (go_nilctx n q h Hq Hn) as X. destruct (enc_nilctx q) as [|e| |]; try easy. now exists e.
Qed.
Print Assumptions C63_nil_context.

(* The condition on the context holds in new contexts and is kept. *)
Theorem C63_contexts : forall m q c f c',
  NoDup (map fst (svars (cScoper (BasicQContext m)))) /\
  (NoDup (map fst (svars (cScoper c))) -> fst (enc q c) <> Hang -> enc q c = (f, c') -> NoDup (map fst (svars (cScoper c')))).
Proof.
  intros m q c f c'. split; [constructor|]. intros H Hh E.
  assert (K : kept (levels (cScoper c) + length (scopes (cScoper c)) + qheight q)%nat (length (scopes (cScoper c))) (cModel c) c) by (repeat split; [exact H | lia]).
  pose proof (keep_enc q (levels (cScoper c) + length (scopes (cScoper c)) + qheight q)%nat (length (scopes (cScoper c))) (cModel c) ltac:(lia) c K Hh) as X. rewrite E in X. apply X.
Qed.
Print Assumptions C63_contexts.

(* ---- C64 ---- *)

(* ctx := query.BasicQContext(m); q.Encoding(ctx), as the text has it. *)
Definition text_new_encoding (n : nat) (m : model) (q : query) : res (list val) * heap :=
  match gocall n "query.BasicQContext" [v_model m] [] with
  | (Ok [VPtr 0], h) => go_encoding n q h
  | (_, h) => (Panic, h)
  end.
Definition new_fuel (m : model) (q : query) : nat := (Dim m + 3 * length (Nodes m) + 3 * qheight q + 8)%nat.
Lemma text_new n m q : (new_fuel m q <= n)%nat -> text_new_encoding n m q = go_encoding n q [v_ctx (BasicQContext m)].
Proof. intros H. unfold text_new_encoding. rewrite go_BasicQContext by (unfold new_fuel in H; lia). reflexivity. Qed.

Theorem C64_truth : forall m t q N n, (0 < Dim m)%nat -> (has_all q = true -> is_dtree m t) -> wf_query m t q -> tidy N (Dim m) q ->
  (new_fuel m q <= n)%nat ->
  exists f h, text_new_encoding n m q = (Ok [v_cnf f; VNil], h)
    /\ ((exists r, Models r f = true) <-> true_query (Dim m) t q).
Proof.
  intros m t q N n Hd HA W T Hn. destruct (C23_sat m t q N Hd HA W T) as (f & c' & E & S).
  rewrite text_new by exact Hn.
  assert (Hq : q <> QNil) by (intros ->; discriminate E).
  pose proof (C63_query q (BasicQContext m) [] n Hq (NoDup_nil _) ltac:(unfold text_fuel; unfold new_fuel in Hn; cbn; lia)) as X.
  rewrite E in X. destruct X as (k & X). exists f, (v_ctx c' :: [] ++ k). now split.
Qed.
Print Assumptions C64_truth.

Theorem C64_first_order : forall m t q N E n, (0 < Dim m)%nat -> (has_all q = true -> is_dtree m t) -> fo_query m t q -> tidy N (Dim m) q ->
  valid_env (Dim m) E -> (new_fuel m q <= n)%nat ->
  exists f h, text_new_encoding n m q = (Ok [v_cnf f; VNil], h)
    /\ ((exists r, Models r f = true) <-> trueFO (Dim m) t E [] q).
Proof.
  intros m t q N E n Hd HA F T V Hn. destruct (C64_truth m t q N n Hd HA (fo_wf _ _ _ F) T Hn) as (f & h & X & S).
  exists f, h. split; [exact X|]. rewrite S. symmetry. apply fo_true; auto; apply F.
Qed.
Print Assumptions C64_first_order.

(* The text neither panics nor runs forever, whatever was encoded before. *)
Theorem C64_no_panic : forall t q c g n, good_ctx c -> NoDup (map fst (svars (cScoper c))) -> is_dtree (cModel c) t -> q <> QNil ->
  (forall a, In a (atoms_of q) -> has_pref a) -> (text_fuel q c <= n)%nat ->
  exists f err h, go_encoding n q (v_ctx c :: g) = (Ok [v_cnf f; err], h).
Proof.
  intros t q c g n G Hd T Hq P Hn. pose proof (C63_query q c g n Hq Hd Hn) as X.
  destruct (C36_no_panic t q c G T Hq P) as [(f & c' & E)|(e & c' & E)]; rewrite E in X.
  - destruct X as (k & X). do 3 eexists. exact X.
  - destruct X as (f & k & X). do 3 eexists. exact X.
Qed.
Print Assumptions C64_no_panic.

(* ---- concrete cases ---- *)

(* A context that has been used before, and a query whose last component finds a
   constant of the wrong dimension: the text, run. *)
Definition late_error : query :=
  QAnd sample (QAtom (HeprVC "x" (mkQConst "k" [ONE]) [1; 0] (Some (fun p a b => append p (append a b))))).
Example C63_case :
  late_error <> QNil /\ NoDup (map fst (svars (cScoper used_ctx))) /\ (text_fuel late_error used_ctx <= 100)%nat
  /\ match go_encoding 100 sample [v_ctx used_ctx; VNil] with
     | (Ok [f; VNil], c :: VNil :: _) => c <> v_ctx used_ctx /\ f <> v_cnf TrueCNF
     | _ => False
     end
  /\ match go_encoding 100 late_error [v_ctx used_ctx; VNil] with
     | (Ok [f; VErr e []], c :: VNil :: _) => c <> v_ctx used_ctx
     | _ => False
     end.
Proof.
  split; [discriminate|]. split; [apply (C63_contexts stump sample (BasicQContext stump) (fst (enc sample (BasicQContext stump))) used_ctx);
    [constructor|vm_compute; discriminate|unfold used_ctx; now destruct (enc sample (BasicQContext stump))]|]. split; [vm_compute; lia|].
  split; [vm_compute; split; discriminate|vm_compute; discriminate].
Qed.
Example C63_nil_context_case : late_error <> QNil
  /\ fst (gocall 3 (type_of (v_query late_error) ++ ".Encoding") [v_query late_error; VNil] [])
     = Ok [v_cnf TrueCNF; VErr "And: Invalid encoding with nil ctx" []].
Proof. split; [discriminate|vm_compute; reflexivity]. Qed.

(* true of the tree, and the formula the text returns *)
Example C64_case_true : true_query 2 stump_tree sample
  /\ exists f h, text_new_encoding 60 stump sample = (Ok [v_cnf f; VNil], h) /\ exists r, Models r f = true.
Proof.
  split; [exact C23_case_true|].
  destruct (C64_truth stump stump_tree sample comp_naming 60) as (f & h & E & S);
    [simpl; lia|intros _; exact stump_is_dtree|exact sample_wf|exact sample_tidy|vm_compute; lia|].
  exists f, h. split; [exact E|]. apply S. exact C23_case_true.
Qed.
(* false of the tree *)
Example C64_case_false : ~ trueFO 2 stump_tree (fun _ => [BOT; BOT]) [] sample2
  /\ exists f h, text_new_encoding 60 stump sample2 = (Ok [v_cnf f; VNil], h) /\ ~ exists r, Models r f = true.
Proof.
  split; [exact C24_case_false|].
  destruct (C64_first_order stump stump_tree sample2 comp_naming (fun _ => [BOT; BOT]) 60) as (f & h & E & S);
    [simpl; lia|intros _; exact stump_is_dtree|exact sample2_fo|exact sample2_tidy|intros v; ok_const|vm_compute; lia|].
  exists f, h. split; [exact E|]. rewrite S. exact C24_case_false.
Qed.
Example C64_no_panic_case :
  good_ctx used_ctx /\ NoDup (map fst (svars (cScoper used_ctx))) /\ is_dtree (cModel used_ctx) stump_tree /\ late_error <> QNil
  /\ (forall a, In a (atoms_of late_error) -> has_pref a) /\ (text_fuel late_error used_ctx <= 100)%nat.
Proof.
  destruct C36_case as (A & B & _). destruct C63_case as (E & F & G & _).
  refine (conj A (conj F (conj B (conj E (conj _ G))))).
  intros a Ha. simpl in Ha. repeat destruct Ha as [<-|Ha]; try exact Logic.I; [discriminate|contradiction].
Qed.
