(* C56: compute/optimum.go and compute/boolcomb.go for any Solver and any
   Encodable.  ComputeOptim and the combinators use the solver only through the
   interface (compute/solver.go:17-34): Step and Values.  What the two methods
   do, with the context, with the state of the solver and with everything else,
   is here a pair of functions on a type of worlds. *)
From Verif Require Import GoBase GoLemmas Cnf Query Walk Atoms Logop Spec Meaning Truth CnfSem QueryLemmas Sym AtomBase TreeLemmas WalkLemmas AtomMain Form Master Block Ground Sat AtomCnf Evolve Names FirstOrder Answer Solver Dimacs Compute Run PropContext PropTruth PropCompute Optim PropOptim Outside.
Local Open Scope string_scope.
Local Open Scope Z_scope.
Local Open Scope list_scope.

(* compute/solver.go:17-34.  [i_Step] ends in nil (SSat), in an error that is
   UnsatError, in another error, or does not return; [i_Reset] is the method
   Reset of the context (query/context.go:10-18).  [i_With] and [i_And] are the
   structs of logop that optimum.go:55 and :77-83 make. *)
Record interface (Q W : Type) := mkInterface
  { i_Step : Q -> W -> sres * W;
    i_Values : list QVar -> W -> res (list QConst) * W;
    i_Reset : W -> W;
    i_With : QVar -> Q -> Q;
    i_And : Q -> Q -> Q }.
Arguments i_Step {Q W}. Arguments i_Values {Q W}. Arguments i_Reset {Q W}. Arguments i_With {Q W}. Arguments i_And {Q W}.

Section Generic.
Variables (Q W : Type) (S : interface Q W).

(* compute/optimum.go:67-93.  [fuel] bounds the number of turns.  fg and og are
   functions: called twice with the same arguments they give the same formula. *)
Fixpoint g_loop (fuel : nat) (fg : QVar -> Q) (og : QVar -> QConst -> Q) (v : QVar) (w : W) (steps : Z) : res OptOutput * W :=
  match fuel with
  | O => (Hang, w)
  | Datatypes.S f =>
      let steps := steps + 1 in
      match i_Values S [v] w with
      | (Err e, w) => (Err e, w)
      | (Panic, w) => (Panic, w)
      | (Hang, w) => (Hang, w)
      | (Ok [], w) => (Panic, i_Reset S w)
      | (Ok (bm :: _), w) =>
          let w := i_Reset S w in
          match i_Step S (i_With S v (i_And S (fg v) (og v bm))) w with
          | (SSat, w) => g_loop f fg og v w steps
          | (SUnsat, w) => (Ok (mkOpt true bm steps), w)
          | (SErr e, w) => (Err e, w)
          | (SPanic, w) => (Panic, w)
          | (SHang, w) => (Hang, w)
          end
      end
  end.

(* compute/optimum.go:39-96; [tmp]: os.CreateTemp succeeds *)
Definition g_optim (fuel : nat) (tmp : bool) (fg : QVar -> Q) (og : QVar -> QConst -> Q) (v : QVar) (w : W) : res OptOutput * W :=
  if negb tmp then (Ok opt_zero, w)
  else
    match i_Step S (i_With S v (fg v)) w with
    | (SSat, w) => g_loop fuel fg og v w 1
    | (SUnsat, w) => (Ok (mkOpt false (mkQConst "" []) 1), w)
    | (SErr e, w) => (Err e, w)
    | (SPanic, w) => (Panic, w)
    | (SHang, w) => (Hang, w)
    end.

(* compute/boolcomb.go:12-63 *)
Inductive gcomb :=
| GNil
| GAtom (q : Q) (negated : bool)
| GConj (l : list gcomb)
| GDisj (l : list gcomb).

(* compute/boolcomb.go:20-33, 38-51 and 65-79 *)
Fixpoint g_sat (k : gcomb) (w : W) : res bool * W :=
  match k with
  | GNil => (Panic, w)
  | GAtom q negated =>
      match i_Step S q w with
      | (SSat, w) => (Ok (negb negated), w)
      | (SUnsat, w) => (Ok negated, w)
      | (SErr e, w) => (Err e, w)
      | (SPanic, w) => (Panic, w)
      | (SHang, w) => (Hang, w)
      end
  | GConj l =>
      (fix go (l : list gcomb) (w : W) {struct l} :=
         match l with
         | [] => (Ok true, w)
         | e :: r =>
             match g_sat e w with
             | (Ok true, w) => go r w
             | other => other
             end
         end) l w
  | GDisj l =>
      (fix go (l : list gcomb) (w : W) {struct l} :=
         match l with
         | [] => (Ok false, w)
         | e :: r =>
             match g_sat e w with
             | (Ok false, w) => go r w
             | other => other
             end
         end) l w
  end.
End Generic.
Arguments g_loop {Q W}. Arguments g_optim {Q W}. Arguments GNil {Q}. Arguments GAtom {Q}. Arguments GConj {Q}. Arguments GDisj {Q}. Arguments g_sat {Q W}.

(* ---- binSolver and the library's queries are one case ---- *)

Definition bin (E : Compute.env) : interface query (solver * ctx) :=
  mkInterface _ _
    (fun q w => let '(r, s, c) := Step E q (fst w) (snd w) in (r, (s, c)))
    (fun vars w => let (r, c) := Values (bs_output (fst w)) vars (snd w) in (r, (fst w, c)))
    (fun w => (fst w, CtxReset (snd w)))
    QWith QAnd.

Definition split {A} (x : res A * (solver * ctx)) : res A * solver * ctx := let '(r, (s, c)) := x in (r, s, c).

Fixpoint of_comb (k : comb) : gcomb query :=
  match k with
  | CNil => GNil
  | CAtom q n => GAtom q n
  | CAnd l => GConj (map of_comb l)
  | COr l => GDisj (map of_comb l)
  end.

(* The length of what Values returns: bm[0] is there. *)
Lemma Values_length : forall out vars c ks c', Values out vars c = (Ok ks, c') -> length ks = length vars.
Proof.
  intros out. induction vars as [|v vars IH]; intros c ks c' H; cbn [Values] in H; [now injection H as <- _|].
  destruct (varValueFromBytes out v c) as [[k|e| |] c1]; try discriminate. destruct (Values out vars c1) as [[ks1|e| |] c2] eqn:X; try discriminate.
  injection H as <- <-. cbn [length]. f_equal. eapply IH; eauto.
Qed.

Lemma bin_loop : forall fuel E fg og v s c k, opt_loop fuel E fg og v s c k = split (g_loop (bin E) fuel fg og v (s, c) k).
Proof.
  induction fuel as [|fuel IH]; intros E fg og v s c k; [reflexivity|]. cbn [opt_loop g_loop bin i_Values i_Step i_Reset i_With i_And fst snd].
  destruct (Values (bs_output s) [v] c) as [[[|bm ks]|e| |] c1] eqn:V; try reflexivity.
  - apply Values_length in V. discriminate.
  - cbn [fst snd]. destruct (Step E (QWith v (QAnd (fg v) (og v bm))) s (CtxReset c1)) as [[r s2] c2]. destruct r; try reflexivity. apply IH.
Qed.

Fixpoint comb_ind' (P : comb -> Prop) (HN : P CNil) (HA : forall q n, P (CAtom q n)) (HC : forall l, Forall P l -> P (CAnd l)) (HD : forall l, Forall P l -> P (COr l)) (k : comb) : P k :=
  let all := fix all (l : list comb) : Forall P l := match l with [] => Forall_nil P | x :: r => Forall_cons x (comb_ind' P HN HA HC HD x) (all r) end in
  match k with
  | CNil => HN
  | CAtom q n => HA q n
  | CAnd l => HC l (all l)
  | COr l => HD l (all l)
  end.

Theorem C56_binary_solver : forall E,
  (forall fuel fg og v c s, ComputeOptim fuel E fg og v c s = split (g_optim (bin E) fuel (e_opttmp E) fg og v (s, c))) /\
  (forall k s c, CombSat E k s c = split (g_sat (bin E) (of_comb k) (s, c))).
Proof.
  intros E. split.
  - intros fuel fg og v c s. unfold ComputeOptim, g_optim. destruct (e_opttmp E); [|reflexivity]. cbn [negb bin i_Step i_With fst snd].
    destruct (Step E (QWith v (fg v)) s c) as [[r s1] c1]. destruct r; try reflexivity. apply bin_loop.
  - induction k as [|q n|l IH|l IH] using comb_ind'; intros s c.
    + reflexivity.
    + cbn [CombSat of_comb g_sat bin i_Step fst snd]. destruct (Step E q s c) as [[r s1] c1]. now destruct r.
    + cbn [CombSat of_comb g_sat]. revert s c. induction IH as [|k l H _ IHl]; intros s c; [reflexivity|]. cbn [map].
      rewrite H. destruct (g_sat (bin E) (of_comb k) (s, c)) as [r [s1 c1]]. cbn [split]. destruct r as [[|]|e| |]; try reflexivity. apply IHl.
    + cbn [CombSat of_comb g_sat]. revert s c. induction IH as [|k l H _ IHl]; intros s c; [reflexivity|]. cbn [map].
      rewrite H. destruct (g_sat (bin E) (of_comb k) (s, c)) as [r [s1 c1]]. cbn [split]. destruct r as [[|]|e| |]; try reflexivity. apply IHl.
Qed.
Print Assumptions C56_binary_solver.

(* ---- how the interface is used, whatever is behind it ---- *)

(* A call, with what came back. *)
Inductive call (Q : Type) :=
| CallStep (q : Q) (r : sres)
| CallValues (vars : list QVar) (r : res (list QConst))
| CallReset.
Arguments CallStep {Q}. Arguments CallValues {Q}. Arguments CallReset {Q}.

(* The solver and the context, recording the calls. *)
Definition recorded {Q W} (S : interface Q W) : interface Q (W * list (call Q)) :=
  mkInterface _ _
    (fun q w => let (r, w') := i_Step S q (fst w) in (r, (w', snd w ++ [CallStep q r])))
    (fun vars w => let (r, w') := i_Values S vars (fst w) in (r, (w', snd w ++ [CallValues vars r])))
    (fun w => (i_Reset S (fst w), snd w ++ [CallReset]))
    (i_With S) (i_And S).

Definition stepped {Q} (x : call Q) : bool := match x with CallStep _ _ => true | _ => false end.
Definition steps_in {Q} (l : list (call Q)) : Z := Z.of_nat (length (filter stepped l)).

Section Protocol.
Variables (Q : Type) (first : Q) (next : QConst -> Q) (v : QVar).

(* The turns that found something: the value of v is read, the context is
   cleared and the next formula, made from the value, is satisfiable. *)
Inductive turns : list (call Q) -> Prop :=
| TNone : turns []
| TOne : forall bm more l, turns l -> turns (l ++ [CallValues [v] (Ok (bm :: more)); CallReset; CallStep (next bm) SSat]).

(* What ComputeOptim has done when it returns, and what it returns. *)
Inductive protocol : list (call Q) -> res OptOutput -> Prop :=
| PNotFound : protocol [CallStep first SUnsat] (Ok (mkOpt false (mkQConst "" []) 1))
| PFirst : forall r out, (exists e, r = SErr e /\ out = Err e) \/ r = SPanic /\ out = Panic \/ r = SHang /\ out = Hang -> protocol [CallStep first r] out
| PFound : forall l bm more, turns l ->
    let all := CallStep first SSat :: l ++ [CallValues [v] (Ok (bm :: more)); CallReset; CallStep (next bm) SUnsat] in
    protocol all (Ok (mkOpt true bm (steps_in all)))
| PNoValue : forall l r out, turns l -> (exists e, r = Err e /\ out = Err e) \/ r = Panic /\ out = Panic \/ r = Hang /\ out = Hang ->
    protocol (CallStep first SSat :: l ++ [CallValues [v] r]) out
| PEmpty : forall l, turns l -> protocol (CallStep first SSat :: l ++ [CallValues [v] (Ok []); CallReset]) Panic
| PNoStep : forall l bm more r out, turns l -> (exists e, r = SErr e /\ out = Err e) \/ r = SPanic /\ out = Panic \/ r = SHang /\ out = Hang ->
    protocol (CallStep first SSat :: l ++ [CallValues [v] (Ok (bm :: more)); CallReset; CallStep (next bm) r]) out
| PGoesOn : forall l, turns l -> protocol (CallStep first SSat :: l) Hang.
End Protocol.

Lemma steps_app : forall Q (l1 l2 : list (call Q)), steps_in (l1 ++ l2) = steps_in l1 + steps_in l2.
Proof. intros Q l1 l2. unfold steps_in. rewrite filter_app, app_length. lia. Qed.

Lemma steps_cons : forall Q q r (l : list (call Q)), steps_in (CallStep q r :: l) = 1 + steps_in l.
Proof. intros Q q r l. unfold steps_in. cbn [filter stepped length]. lia. Qed.

Lemma loop_protocol : forall Q W (S : interface Q W) fg og v fuel w l r w', let R := recorded S in
  turns Q (fun bm => i_With S v (i_And S (fg v) (og v bm))) v l ->
  g_loop R fuel fg og v (w, CallStep (i_With S v (fg v)) SSat :: l) (steps_in (CallStep (i_With S v (fg v)) SSat :: l)) = (r, w') ->
  protocol Q (i_With S v (fg v)) (fun bm => i_With S v (i_And S (fg v) (og v bm))) v (snd w') r.
Proof.
  intros Q W S fg og v. induction fuel as [|fuel IH]; intros w l r w' R T H.
  - injection H as <- <-. now apply PGoesOn.
  - cbn [g_loop] in H. unfold R in H. cbn [recorded i_Values i_Step i_Reset i_With i_And fst snd] in H.
    destruct (i_Values S [v] w) as [[[|bm more]|e| |] w1] eqn:EV.
    + injection H as <- <-. cbn [snd]. rewrite <- app_assoc. cbn [app]. apply PEmpty; auto.
    + cbn [fst snd] in H. rewrite <- !app_assoc in H. cbn [app] in H.
      destruct (i_Step S (i_With S v (i_And S (fg v) (og v bm))) (i_Reset S w1)) as [r2 w2] eqn:ES.
      destruct r2; rewrite <- ?app_assoc in H; cbn [app] in H.
      * refine (IH w2 (l ++ [CallValues [v] (Ok (bm :: more)); CallReset; CallStep (i_With S v (i_And S (fg v) (og v bm))) SSat]) r w' (TOne Q _ v bm more l T) _).
        rewrite <- H. f_equal. rewrite steps_cons, steps_app, (steps_cons _ _ _ l). unfold steps_in at 2. cbn [filter stepped length]. lia.
      * apply pair_equal_spec in H as [<- <-]. cbn [snd].
        replace (steps_in (CallStep (i_With S v (fg v)) SSat :: l) + 1) with
          (steps_in (CallStep (i_With S v (fg v)) SSat :: l ++ [CallValues [v] (Ok (bm :: more)); CallReset; CallStep (i_With S v (i_And S (fg v) (og v bm))) SUnsat])).
        -- exact (PFound Q (i_With S v (fg v)) (fun bm => i_With S v (i_And S (fg v) (og v bm))) v l bm more T).
        -- rewrite steps_cons, steps_app, (steps_cons _ _ _ l). unfold steps_in at 2. cbn [filter stepped length]. lia.
      * injection H as <- <-. apply (PNoStep Q (i_With S v (fg v)) (fun bm => i_With S v (i_And S (fg v) (og v bm))) v l bm more); eauto.
      * injection H as <- <-. apply (PNoStep Q (i_With S v (fg v)) (fun bm => i_With S v (i_And S (fg v) (og v bm))) v l bm more); eauto.
      * injection H as <- <-. apply (PNoStep Q (i_With S v (fg v)) (fun bm => i_With S v (i_And S (fg v) (og v bm))) v l bm more); eauto.
    + injection H as <- <-. apply PNoValue; eauto.
    + injection H as <- <-. apply PNoValue; eauto.
    + injection H as <- <-. apply PNoValue; eauto 6.
Qed.

Theorem C56_protocol : forall Q W (S : interface Q W) fuel fg og v w,
  exists r w' calls, g_optim (recorded S) fuel true fg og v (w, []) = (r, (w', calls)) /\ g_optim S fuel true fg og v w = (r, w') /\
    protocol Q (i_With S v (fg v)) (fun bm => i_With S v (i_And S (fg v) (og v bm))) v calls r.
Proof.
  intros Q W S fuel fg og v w.
  assert (LL : forall fuel w l k r w', g_loop (recorded S) fuel fg og v (w, l) k = (r, w') -> g_loop S fuel fg og v w k = (r, fst w')).
  { clear fuel w. induction fuel as [|fuel IH]; intros w l k r w' H; [now injection H as <- <-|].
    cbn [g_loop recorded i_Values i_Step i_Reset i_With i_And fst snd] in *. destruct (i_Values S [v] w) as [[[|bm more]|e| |] w1]; try (now injection H as <- <-).
    cbn [fst snd] in H. destruct (i_Step S (i_With S v (i_And S (fg v) (og v bm))) (i_Reset S w1)) as [r2 w2]. destruct r2; try (now injection H as <- <-).
    eapply IH; exact H. }
  unfold g_optim. cbn [negb recorded i_Step i_With fst snd app]. destruct (i_Step S (i_With S v (fg v)) w) as [r1 w1].
  destruct r1.
  - destruct (g_loop (recorded S) fuel fg og v (w1, [CallStep (i_With S v (fg v)) SSat]) 1) as [r [w' calls]] eqn:L. exists r, w', calls. split; [reflexivity|]. split; [exact (LL _ _ _ _ _ _ L)|].
    exact (loop_protocol Q W S fg og v fuel w1 [] r (w', calls) (TNone _ _ _) L).
  - do 3 eexists. split; [reflexivity|]. split; [reflexivity|]. apply PNotFound.
  - do 3 eexists. split; [reflexivity|]. split; [reflexivity|]. apply PFirst. eauto.
  - do 3 eexists. split; [reflexivity|]. split; [reflexivity|]. apply PFirst. auto.
  - do 3 eexists. split; [reflexivity|]. split; [reflexivity|]. apply PFirst. auto.
Qed.
Print Assumptions C56_protocol.

(* The combinators: each atom is one Step with its query, nothing else is called;
   from left to right, and no more than needed. *)
Inductive asked {Q} : gcomb Q -> list (call Q) -> res bool -> Prop :=
| AskNil : asked GNil [] Panic
| AskSat : forall q n, asked (GAtom q n) [CallStep q SSat] (Ok (negb n))
| AskUnsat : forall q n, asked (GAtom q n) [CallStep q SUnsat] (Ok n)
| AskFails : forall q n r out, (exists e, r = SErr e /\ out = Err e) \/ r = SPanic /\ out = Panic \/ r = SHang /\ out = Hang -> asked (GAtom q n) [CallStep q r] out
| AskAnd : forall l cs out, asked_all true l cs out -> asked (GConj l) cs out
| AskOr : forall l cs out, asked_all false l cs out -> asked (GDisj l) cs out
with asked_all {Q} : bool -> list (gcomb Q) -> list (call Q) -> res bool -> Prop :=
| AskEnd : forall v, asked_all v [] [] (Ok v)
| AskMore : forall v k l cs1 cs2 out, asked k cs1 (Ok v) -> asked_all v l cs2 out -> asked_all v (k :: l) (cs1 ++ cs2) out
| AskStop : forall v k l cs out, asked k cs out -> out <> Ok v -> asked_all v (k :: l) cs out.

Fixpoint gcomb_ind' {Q} (P : gcomb Q -> Prop) (HN : P GNil) (HA : forall q n, P (GAtom q n)) (HC : forall l, Forall P l -> P (GConj l)) (HD : forall l, Forall P l -> P (GDisj l)) (k : gcomb Q) : P k :=
  let all := fix all (l : list (gcomb Q)) : Forall P l := match l with [] => Forall_nil P | x :: r => Forall_cons x (gcomb_ind' P HN HA HC HD x) (all r) end in
  match k with
  | GNil => HN
  | GAtom q n => HA q n
  | GConj l => HC l (all l)
  | GDisj l => HD l (all l)
  end.

Theorem C56_combinators : forall Q W (S : interface Q W) k w l,
  exists r w' cs, g_sat (recorded S) k (w, l) = (r, (w', l ++ cs)) /\ g_sat S k w = (r, w') /\ asked k cs r.
Proof.
  intros Q W S k. induction k as [|q n|ks IH|ks IH] using gcomb_ind'; intros w l.
  - exists Panic, w, []. rewrite app_nil_r. repeat (split; [reflexivity|]). constructor.
  - cbn [g_sat recorded i_Step fst snd]. destruct (i_Step S q w) as [r w1].
    destruct r; do 3 eexists; (split; [reflexivity|]); (split; [reflexivity|]); try constructor; eauto.
  - cbn [g_sat]. enough (X : exists r w' cs,
      (fix go (l : list (gcomb Q)) w {struct l} := match l with [] => (Ok true, w) | e :: r => match g_sat (recorded S) e w with (Ok true, w) => go r w | other => other end end) ks (w, l) = (r, (w', l ++ cs)) /\
      (fix go (l : list (gcomb Q)) (w : W) {struct l} := match l with [] => (Ok true, w) | e :: r => match g_sat S e w with (Ok true, w) => go r w | other => other end end) ks w = (r, w') /\ asked_all true ks cs r).
    { destruct X as (r & w' & cs & A & B & C). exists r, w', cs. split; [exact A|]. split; [exact B|]. now constructor. }
    revert w l. induction IH as [|k ks H _ IHl]; intros w l.
    + exists (Ok true), w, []. rewrite app_nil_r. repeat (split; [reflexivity|]). constructor.
    + destruct (H w l) as (r & w1 & cs & A & B & C). rewrite A, B. destruct r as [[|]|e| |].
      * destruct (IHl w1 (l ++ cs)) as (r2 & w2 & cs2 & A2 & B2 & C2). exists r2, w2, (cs ++ cs2). rewrite app_assoc. split; [exact A2|]. split; [exact B2|]. econstructor; eauto.
      * exists (Ok false), w1, cs. repeat (split; [reflexivity|]). apply AskStop; [exact C|discriminate].
      * exists (Err e), w1, cs. repeat (split; [reflexivity|]). apply AskStop; [exact C|discriminate].
      * exists Panic, w1, cs. repeat (split; [reflexivity|]). apply AskStop; [exact C|discriminate].
      * exists Hang, w1, cs. repeat (split; [reflexivity|]). apply AskStop; [exact C|discriminate].
  - cbn [g_sat]. enough (X : exists r w' cs,
      (fix go (l : list (gcomb Q)) w {struct l} := match l with [] => (Ok false, w) | e :: r => match g_sat (recorded S) e w with (Ok false, w) => go r w | other => other end end) ks (w, l) = (r, (w', l ++ cs)) /\
      (fix go (l : list (gcomb Q)) (w : W) {struct l} := match l with [] => (Ok false, w) | e :: r => match g_sat S e w with (Ok false, w) => go r w | other => other end end) ks w = (r, w') /\ asked_all false ks cs r).
    { destruct X as (r & w' & cs & A & B & C). exists r, w', cs. split; [exact A|]. split; [exact B|]. now constructor. }
    revert w l. induction IH as [|k ks H _ IHl]; intros w l.
    + exists (Ok false), w, []. rewrite app_nil_r. repeat (split; [reflexivity|]). constructor.
    + destruct (H w l) as (r & w1 & cs & A & B & C). rewrite A, B. destruct r as [[|]|e| |].
      * exists (Ok true), w1, cs. repeat (split; [reflexivity|]). apply AskStop; [exact C|discriminate].
      * destruct (IHl w1 (l ++ cs)) as (r2 & w2 & cs2 & A2 & B2 & C2). exists r2, w2, (cs ++ cs2). rewrite app_assoc. split; [exact A2|]. split; [exact B2|]. econstructor; eauto.
      * exists (Err e), w1, cs. repeat (split; [reflexivity|]). apply AskStop; [exact C|discriminate].
      * exists Panic, w1, cs. repeat (split; [reflexivity|]). apply AskStop; [exact C|discriminate].
      * exists Hang, w1, cs. repeat (split; [reflexivity|]). apply AskStop; [exact C|discriminate].
Qed.
Print Assumptions C56_combinators.

(* ---- a solver that does what the interface says ---- *)

(* compute/solver.go:24-33: Step determines if a valuation that makes q true
   exists and records it; Values, called next with the same context, returns the
   values in it.  [truth q e]: some valuation that makes q true gives v the value
   e.  It is only asked of the queries in [asks], in the worlds in [ready], and
   the world is ready again after Reset. *)
Definition does_as_said {Q W} (S : interface Q W) (truth : Q -> inst -> Prop) (v : QVar) (asks : Q -> Prop) (ready : W -> Prop) : Prop :=
  forall q w, asks q -> ready w ->
    (exists e w1 w2, truth q e /\ i_Step S q w = (SSat, w1) /\ i_Values S [v] w1 = (Ok [mkQConst "" e], w2) /\ ready (i_Reset S w2)) \/
    ((forall e, ~ truth q e) /\ exists w1, i_Step S q w = (SUnsat, w1)).

Section Contract.
Variables (Q W : Type) (S : interface Q W) (truth : Q -> inst -> Prop) (v : QVar) (ready : W -> Prop) (fg : QVar -> Q) (og : QVar -> QConst -> Q).
Let first := i_With S v (fg v).
Let next e := i_With S v (i_And S (fg v) (og v (mkQConst "" e))).
Let ok e := truth first e.
Let lt e' e := truth (next e) e'.
Hypothesis (AS : does_as_said S truth v (fun q => q = first \/ exists e, ok e /\ q = next e) ready) (CONJ : forall e e', ok e -> lt e' e -> ok e').

Definition holds (w : W) (e : inst) : Prop := ok e /\ exists w2, i_Values S [v] w = (Ok [mkQConst "" e], w2) /\ ready (i_Reset S w2).

Lemma g_turn : forall w e fuel k, holds w e ->
  (exists e' w', g_loop S (Datatypes.S fuel) fg og v w k = g_loop S fuel fg og v w' (k + 1) /\ holds w' e' /\ lt e' e) \/
  ((forall e', ~ lt e' e) /\ exists w', g_loop S (Datatypes.S fuel) fg og v w k = (Ok (mkOpt true (mkQConst "" e) (k + 1)), w')).
Proof.
  intros w e fuel k (O & w2 & V & R). cbn [g_loop]. rewrite V.
  destruct (AS (next e) (i_Reset S w2) (or_intror (ex_intro _ e (conj O eq_refl))) R) as [(e' & w3 & w4 & T & ST & V' & R')|(N & w3 & ST)]; unfold next in ST; rewrite ST.
  - left. exists e', w3. split; [reflexivity|]. split; [|exact T]. split; [exact (CONJ e e' O T)|]. eauto.
  - right. split; [exact N|]. eauto.
Qed.

Lemma g_whatever : forall fuel w e k, holds w e ->
  exists r w', g_loop S fuel fg og v w k = (r, w') /\
    (r = Hang \/ exists e' n, r = Ok (mkOpt true (mkQConst "" e') n) /\ k < n <= k + Z.of_nat fuel /\ ok e' /\ forall e'', ~ lt e'' e').
Proof.
  induction fuel as [|fuel IH]; intros w e k H; [do 2 eexists; split; [reflexivity|auto]|].
  destruct (g_turn w e fuel k H) as [(e' & w' & X & H' & L)|(N & w' & X)]; rewrite X.
  - destruct (IH w' e' (k + 1) H') as (r & w2 & A & [B|(e2 & n & B1 & B2 & B3)]); exists r, w2; (split; [exact A|]); auto. right. exists e2, n. split; auto. split; [lia|auto].
  - do 2 eexists. split; [reflexivity|]. right. exists e, (k + 1). split; [reflexivity|]. split; [lia|]. split; [apply H|exact N].
Qed.

Lemma g_ends : forall (mu : inst -> nat), (forall e e', ok e -> ok e' -> lt e' e -> (mu e' < mu e)%nat) ->
  forall n w e fuel k, holds w e -> (mu e < n)%nat -> (n <= fuel)%nat ->
  exists e' j w', g_loop S fuel fg og v w k = (Ok (mkOpt true (mkQConst "" e') j), w') /\ j <= k + Z.of_nat n.
Proof.
  intros mu D. induction n as [|n IH]; intros w e fuel k H B F; [lia|]. destruct fuel as [|fuel]; [lia|].
  destruct (g_turn w e fuel k H) as [(e' & w' & X & H' & L)|(N & w' & X)]; rewrite X.
  - pose proof (D e e' (proj1 H) (proj1 H') L). destruct (IH w' e' fuel (k + 1) H') as (e2 & j & w2 & A & C); try lia. exists e2, j, w2. split; auto. lia.
  - do 3 eexists. split; [reflexivity|]. lia.
Qed.

Lemma g_endless : (forall e, ok e -> exists e', lt e' e) -> forall fuel w e k, holds w e -> exists w', g_loop S fuel fg og v w k = (Hang, w').
Proof.
  intros D. induction fuel as [|fuel IH]; intros w e k H; [eexists; reflexivity|].
  destruct (g_turn w e fuel k H) as [(e' & w' & X & H' & L)|(N & w' & X)]; rewrite X; eauto. destruct (D e (proj1 H)) as (e' & L). elim (N e' L).
Qed.
End Contract.

Theorem C56_optimal : forall Q W (S : interface Q W) truth v ready fg og,
  let first := i_With S v (fg v) in
  let next e := i_With S v (i_And S (fg v) (og v (mkQConst "" e))) in
  let ok e := truth first e in
  let lt e' e := truth (next e) e' in
  does_as_said S truth v (fun q => q = first \/ exists e, ok e /\ q = next e) ready ->
  (forall e e', ok e -> lt e' e -> ok e') ->
  forall w, ready w ->
  ((forall e, ~ ok e) -> forall fuel, exists w', g_optim S fuel true fg og v w = (Ok (mkOpt false (mkQConst "" []) 1), w')) /\
  (forall fuel r w', (exists e, ok e) -> g_optim S fuel true fg og v w = (r, w') ->
     r = Hang \/ exists e n, r = Ok (mkOpt true (mkQConst "" e) n) /\ 2 <= n <= Z.of_nat fuel + 1 /\ ok e /\ forall e', ~ lt e' e) /\
  (forall (mu : inst -> nat) B fuel, (exists e, ok e) -> (forall e, ok e -> (mu e <= B)%nat) -> (forall e e', ok e -> ok e' -> lt e' e -> (mu e' < mu e)%nat) -> (B < fuel)%nat ->
     exists e n w', g_optim S fuel true fg og v w = (Ok (mkOpt true (mkQConst "" e) n), w') /\ n <= Z.of_nat B + 2 /\ ok e /\ forall e', ~ lt e' e) /\
  ((exists e, ok e) -> (forall e, ok e -> exists e', lt e' e) -> forall fuel, exists w', g_optim S fuel true fg og v w = (Hang, w')).
Proof.
  intros Q W S truth v ready fg og first next ok lt AS CJ w R.
  assert (F : (exists e w1, i_Step S (i_With S v (fg v)) w = (SSat, w1) /\ holds Q W S truth v ready fg w1 e) \/ ((forall e, ~ ok e) /\ exists w1, i_Step S (i_With S v (fg v)) w = (SUnsat, w1))).
  { destruct (AS first w (or_introl eq_refl) R) as [(e & w1 & w2 & T & ST & V & R')|(N & w1 & ST)]; [left|right; eauto].
    exists e, w1. split; [exact ST|]. split; [exact T|]. eauto. }
  unfold g_optim. cbn [negb]. destruct F as [(e & w1 & ST & H)|(N & w1 & ST)]; rewrite ST.
  - split; [intros N; elim (N e (proj1 H))|]. split.
    + intros fuel r w' _ X. destruct (g_whatever Q W S truth v ready fg og AS CJ fuel w1 e 1 H) as (r0 & w0 & A & B). rewrite X in A. injection A as -> ->.
      destruct B as [B|(e' & n & B1 & B2 & B3)]; auto. right. exists e', n. split; auto. split; [lia|exact B3].
    + split.
      * intros mu B fuel _ MB MD FU. destruct (g_ends Q W S truth v ready fg og AS CJ mu MD (Datatypes.S B) w1 e fuel 1 H) as (e' & n & w' & A & C); [pose proof (MB e (proj1 H)); lia|lia|].
        exists e', n, w'. split; [exact A|]. split; [lia|]. destruct (g_whatever Q W S truth v ready fg og AS CJ fuel w1 e 1 H) as (r0 & w0 & A' & B'). rewrite A in A'. injection A' as <- <-.
        destruct B' as [B'|(e2 & n2 & B1 & B2 & B3 & B4)]; [discriminate|]. injection B1 as <- <-. auto.
      * intros _ D fuel. exact (g_endless Q W S truth v ready fg og AS CJ D fuel w1 e 1 H).
  - split; [intros _ fuel; eauto|]. split; [intros fuel r w' (e & He); elim (N e He)|]. split; [intros mu B fuel (e & He); elim (N e He)|intros (e & He); elim (N e He)].
Qed.
Print Assumptions C56_optimal.

(* binSolver does as said, on the queries of a problem. *)
Theorem C56_binary_as_said : forall E m t N fg og v, problem m t N fg og v -> files_ok E -> correct_solver E ->
  let truth q e := match q with QWith w p => w = v /\ satisfies (Dim m) t v p e | _ => False end in
  let next e := QWith v (QAnd (fg v) (og v (mkQConst "" e))) in
  does_as_said (bin E) truth v (fun q => q = QWith v (fg v) \/ exists e, truth (QWith v (fg v)) e /\ q = next e) (fun w => snd w = BasicQContext m) /\
  (forall e e', truth (QWith v (fg v)) e -> (truth (next e) e' <-> satisfies (Dim m) t v (fg v) e' /\ satisfies (Dim m) t v (og v (mkQConst "" e)) e')).
Proof.
  intros E m t N fg og v P FO CS truth next. split.
  - intros q [s c] A R. cbn [snd] in R. subst c.
    assert (X : exists p, q = QWith v p /\ wf_query m t q /\ tidy N (Dim m) q /\ fits m q).
    { destruct A as [->|(e & [_ He] & ->)]; [exists (fg v); split; [reflexivity|]; apply (pb_formula _ _ _ _ _ _ P)|].
      exists (QAnd (fg v) (og v (mkQConst "" e))). split; [reflexivity|]. apply (pb_order _ _ _ _ _ _ P e). eapply satisfies_valid; eauto. }
    destruct X as (p & -> & W & T & F). destruct (step_fresh E m t N fg og v P FO CS _ s W T F) as [(H & out & c' & E0 & ST & X1 & X2 & X3 & X4 & X5)|(H & c' & ST)].
    + left. exists (E0 v). do 2 eexists. split; [split; [reflexivity|exists E0; auto]|]. cbn [bin i_Step i_Values i_Reset fst snd]. rewrite ST. split; [reflexivity|]. cbn [fst snd bs_output].
      rewrite (X5 [v]) by (intros w [<-|[]]; simpl; auto). split; [reflexivity|]. cbn [fst snd]. unfold CtxReset. now rewrite X1, X2.
    + right. split.
      * intros e [_ He]. apply H. apply true_satisfies. eauto.
      * eexists. cbn [bin i_Step fst snd]. rewrite ST. reflexivity.
  - intros e e' [_ He]. pose proof (satisfies_valid _ _ _ _ _ He) as V. pose proof (loop_query m t N fg og v P e e' V) as L. unfold truth, next. unfold meets, below in L. tauto.
Qed.
Print Assumptions C56_binary_as_said.

(* ---- binSolver with any Encodable ---- *)

(* compute/solver.go:56-92, as Step in Compute.v, for any method Encoding.  Its
   errors are taken not to be UnsatError or to wrap it: no error of the library
   does. *)
Definition StepAny (E : Compute.env) (x : M CNF) (s : solver) (c : ctx) : sres * solver * ctx :=
  let k := bs_calls s in
  let s := mkSolver (bs_output s) (S k) in
  if negb (e_tmp E k) then (SErr tmp_err, s, c)
  else
    match x c with
    | (Err e, c) => (SErr e, s, c)
    | (Panic, c) => (SPanic, s, c)
    | (Hang, c) => (SHang, s, c)
    | (Ok f, c) =>
        match ToFile (e_create E k) (e_write E k) f with
        | Err e => (SErr e, s, c)
        | Panic => (SPanic, s, c)
        | Hang => (SHang, s, c)
        | Ok file =>
            match runSolver (e_run E k file) with
            | Err e => (SErr e, s, c)
            | Panic => (SPanic, s, c)
            | Hang => (SHang, s, c)
            | Ok (code, out) =>
                if code =? 20 then (SUnsat, s, c)
                else (SSat, mkSolver out (S k), c)
            end
        end
    end.

Lemma StepAny_lib : forall E q s c, StepAny E (enc q) s c = Step E q s c.
Proof. reflexivity. Qed.

(* Sub-queries from outside (C54) under a correct solver: nil exactly when the
   parts can be made true together. *)
Theorem C56_outside : forall E q c g c' s, files_ok E -> correct_solver E -> all_keep q -> good_ctx c -> genc q c = (Ok g, c') -> vm_topv (cVM c') < 2 ^ 63 ->
  exists b, shape (cModel c) q (cScoper c) b (cScoper c') /\
    let ok := exists r, Forall (fun f => Con r f = true) (leaves b) /\ bval r b = true in
    (ok /\ exists out, StepAny E (genc q) s c = (SSat, mkSolver out (S (bs_calls s)), c')) \/
    (~ ok /\ StepAny E (genc q) s c = (SUnsat, mkSolver (bs_output s) (S (bs_calls s)), c')).
Proof.
  intros E q c g c' s FO CS K G EN B. destruct (C54_satisfiable q c g c' K G EN) as (b & Sh & IFF). exists b. split; [exact Sh|]. cbv zeta.
  destruct (safe_genc q K c _ c' G Logic.I EN ltac:(discriminate)) as [_ BD]. destruct (BD g eq_refl) as [(W0 & W1 & W2) T].
  unfold StepAny. destruct (FO (bs_calls s)) as (F1 & F2 & F3). rewrite F1, EN. cbn [negb].
  rewrite F2. rewrite ToFile_ok by (intros i _; apply F3).
  assert (RD := read_ToBytes g (clauses_bound_legal _ _ W1) (clauses_bound_legal _ _ W2)).
  destruct (CS (bs_calls s) (ToBytes g) _ _ _ RD (conj W0 (Z.le_lt_trans _ _ _ T B)) (clauses_bound_app _ _ _ W1 W2)) as [A1 A2].
  destruct (Models_dec g (conj W0 (conj W1 W2))) as [D|D].
  - left. split; [now apply IFF|]. destruct D as (r & Hr). rewrite Models_all in Hr. destruct (A1 (ex_intro _ r Hr)) as (out & err & ls & r' & X & _). rewrite X. exists out. reflexivity.
  - right. split; [intros H; apply IFF in H as (r & Hr); rewrite D in Hr; discriminate|].
    destruct A2 as (out & err & X); [intros r; rewrite <- Models_all; apply D|]. rewrite X. reflexivity.
Qed.
Print Assumptions C56_outside.

(* A solver that keeps no context and no CNF: the queries are predicates on
   instances of two features, and Step looks for an instance. *)
Definition searcher : interface (inst -> bool) (option inst) :=
  mkInterface _ _
    (fun q w => match find q (insts_of 2) with Some e => (SSat, Some e) | None => (SUnsat, w) end)
    (fun vars w => match w with Some e => (Ok (map (fun _ => mkQConst "" e) vars), w) | None => (Err "nothing found", w) end)
    (fun w => w) (fun _ q => q) (fun p q e => p e && q e).
(* The first feature is 1; fewer features are undefined. *)
Definition starts1 : QVar -> inst -> bool := fun _ e => match e with x :: _ => x =? ONE | [] => false end.
Definition fewer : QVar -> QConst -> inst -> bool := fun _ c e => (length (filter (Z.eqb BOT) e) <? length (filter (Z.eqb BOT) (cVal c)))%nat.

Lemma insts_valid : forall d e, In e (insts_of d) -> valid_inst d e.
Proof.
  induction d as [|d IH]; intros e H.
  - destruct H as [<-|[]]. split; [reflexivity|constructor].
  - cbn [insts_of] in H. apply in_flat_map in H as (x & Hx & H). apply in_map_iff in H as (e' & <- & H). destruct (IH e' H) as [L F]. split; [cbn [length]; now rewrite L|].
    constructor; [|exact F]. unfold valid_feat. simpl in Hx. intuition.
Qed.

Example C56_case :
  (let first := starts1 "x" in let next e := (fun e' => starts1 "x" e' && fewer "x" (mkQConst "" e) e') in let truth (q : inst -> bool) e := valid_inst 2 e /\ q e = true in
   does_as_said searcher truth "x" (fun q => q = first \/ exists e, truth first e /\ q = next e) (fun _ => True) /\ (forall e e', truth first e -> truth (next e) e' -> truth first e')) /\
  snd (g_optim (recorded searcher) 9 true starts1 fewer "x" (None, [])) = (Some [ONE; ZERO],
    [CallStep (starts1 "x") SSat; CallValues ["x"] (Ok [mkQConst "" [ONE; BOT]]); CallReset;
     CallStep (fun e => starts1 "x" e && fewer "x" (mkQConst "" [ONE; BOT]) e) SSat; CallValues ["x"] (Ok [mkQConst "" [ONE; ZERO]]); CallReset;
     CallStep (fun e => starts1 "x" e && fewer "x" (mkQConst "" [ONE; ZERO]) e) SUnsat]) /\
  fst (g_optim searcher 9 true starts1 fewer "x" None) = Ok (mkOpt true (mkQConst "" [ONE; ZERO]) 3) /\
  fst (g_optim searcher 9 true (fun _ _ => false) fewer "x" None) = Ok (mkOpt false (mkQConst "" []) 1) /\
  fst (g_sat searcher (GDisj [GAtom (fun _ => false) false; GConj []; GAtom (fun _ => true) true]) None) = Ok true.
Proof.
  split; [|vm_compute; repeat split; reflexivity]. cbv zeta. split.
  - assert (A : forall q w, (exists e w1 w2, (valid_inst 2 e /\ q e = true) /\ i_Step searcher q w = (SSat, w1) /\ i_Values searcher ["x"] w1 = (Ok [mkQConst "" e], w2) /\ True) \/
      ((forall e, ~ (valid_inst 2 e /\ q e = true)) /\ exists w1, i_Step searcher q w = (SUnsat, w1))).
    { intros q w. cbn [searcher i_Step i_Values]. destruct (find q (insts_of 2)) as [e|] eqn:X.
      - apply find_some in X as [I H]. left. exists e, (Some e), (Some e). split; [|auto]. split; [|exact H].
        now apply insts_valid.
      - right. split; [|eauto]. intros e [V H]. rewrite (find_none q _ X e (insts_all 2 e V)) in H. discriminate. }
    intros q w _ _. apply A.
  - intros e e' _ [V H]. split; auto. apply andb_true_iff in H. tauto.
Qed.

(* A solver that answers Step but returns no values: bm[0] panics. *)
Example C56_empty_values :
  fst (g_optim (mkInterface (inst -> bool) unit (fun _ w => (SSat, w)) (fun _ w => (Ok [], w)) (fun w => w) (fun _ q => q) (fun p _ => p)) 5 true starts1 fewer "x" tt) = Panic.
Proof. reflexivity. Qed.

(* A component from outside under a correct solver. *)
Example C56_outside_case :
  let q := GWith "y" (GNot (GOut either)) in
  all_keep q /\ good_ctx inner_ctx /\ files_ok ideal /\ correct_solver ideal /\ exists g c', genc q inner_ctx = (Ok g, c') /\ vm_topv (cVM c') < 2 ^ 63 /\ fst (fst (StepAny ideal (genc q) (mkSolver "" 0) inner_ctx)) = SSat.
Proof.
  cbv zeta. split; [constructor; [|constructor]; intros a Ha b Hb cl l Hc Hl; destruct Hc as [<-|[]]; destruct Hl as [<-|[<-|[]]]; simpl; lia|].
  split; [apply inner_good|]. split; [apply ideal_files|]. split; [apply ideal_correct|].
  eexists. eexists. split; [vm_compute; reflexivity|]. split; [vm_compute; reflexivity|]. vm_compute. reflexivity.
Qed.
