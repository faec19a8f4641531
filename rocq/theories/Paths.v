(* Paths through the text of a function, and what happens on them to the slice or map
   in one variable: it is made, it is written into, something else comes to refer to
   it.  Used for C71.  Paths follow the control flow of GoLang.v (any branch, any
   number of turns), whatever the values. *)
From Verif Require Import GoBase GoLang.
From Coq Require Import Bool.
Local Open Scope string_scope.
Local Open Scope Z_scope.
Local Open Scope list_scope.

Inductive event := Made | Used | Written.
Inductive leave := LvNext | LvBreak | LvContinue | LvGoto (l : string) | LvReturn.

Section Paths.
  (* What a statement without statements inside, and an expression, do to the variable. *)
  Variable events : stmt -> list event.
  Variable cond : expr -> list event.
  Variable ranged : expr -> list event.
  Definition does (s : stmt) : list event := match s with SLabel _ | SDefer _ => [] | _ => events s end.

  Definition ends (s : stmt) : option leave :=
    match s with
    | SAssign _ _ | SExpr _ | SLabel _ | SDefer _ | SDelete _ _ | SCopy _ _ => Some LvNext
    | SReturn _ => Some LvReturn
    | SBreak => Some LvBreak
    | SContinue => Some LvContinue
    | SGoto l => Some (LvGoto l)
    | SIf _ _ _ _ | SFor _ _ _ _ | SRange _ _ _ _ | SBlock _ => None
    end.
  Definition goes_on (l : leave) : bool := match l with LvNext | LvContinue => true | _ => false end.
  Definition leaves (l : leave) : bool := match l with LvGoto _ | LvReturn => true | _ => false end.

  Inductive path : stmt -> list event -> leave -> Prop :=
  | P_simple s l : ends s = Some l -> path s (does s) l
  | P_if init c t e t1 l1 t2 l (b : bool) : block None init t1 l1 -> block None (if b then t else e) t2 l ->
      path (SIf init c t e) (t1 ++ cond c ++ t2) l
  | P_for init c post body t1 l1 t2 l : block None init t1 l1 -> turns c post body t2 l -> path (SFor init c post body) (t1 ++ t2) l
  | P_range k v e body t l : each body t l -> path (SRange k v e body) (ranged e ++ t) l
  | P_block b t l : block None b t l -> path (SBlock b) t l
  (* statements in a row; [Some g] when a goto looks for its label *)
  with block : option string -> list stmt -> list event -> leave -> Prop :=
  | B_end : block None [] [] LvNext
  | B_far g : block (Some g) [] [] (LvGoto g)
  | B_next s r t1 t2 l : path s t1 LvNext -> block None r t2 l -> block None (s :: r) (t1 ++ t2) l
  | B_goto s r t1 t2 g l : path s t1 (LvGoto g) -> block (Some g) r t2 l -> block None (s :: r) (t1 ++ t2) l
  | B_out s r t1 l : path s t1 l -> l <> LvNext -> (forall g, l <> LvGoto g) -> block None (s :: r) t1 l
  | B_skip s r t g l : s <> SLabel g -> block (Some g) r t l -> block (Some g) (s :: r) t l
  | B_label r t g l : block None r t l -> block (Some g) (SLabel g :: r) t l
  (* the turns of a for loop *)
  with turns : expr -> list stmt -> list stmt -> list event -> leave -> Prop :=
  | T_end c post body : turns c post body (cond c) LvNext
  | T_next c post body t1 l1 t2 l2 t3 l : block None body t1 l1 -> goes_on l1 = true -> block None post t2 l2 -> turns c post body t3 l ->
      turns c post body (cond c ++ t1 ++ t2 ++ t3) l
  | T_break c post body t1 : block None body t1 LvBreak -> turns c post body (cond c ++ t1) LvNext
  | T_out c post body t1 l : block None body t1 l -> leaves l = true -> turns c post body (cond c ++ t1) l
  (* the turns of a range loop *)
  with each : list stmt -> list event -> leave -> Prop :=
  | E_end body : each body [] LvNext
  | E_next body t1 l1 t2 l : block None body t1 l1 -> goes_on l1 = true -> each body t2 l -> each body (t1 ++ t2) l
  | E_break body t1 : block None body t1 LvBreak -> each body t1 LvNext
  | E_out body t1 l : block None body t1 l -> leaves l = true -> each body t1 l.

  Scheme path_mut := Minimality for path Sort Prop
    with block_mut := Minimality for block Sort Prop
    with turns_mut := Minimality for turns Sort Prop
    with each_mut := Minimality for each Sort Prop.
  Combined Scheme paths_ind from path_mut, block_mut, turns_mut, each_mut.

  (* ---- every run follows a path ---- *)

  Section Induction.
    Variable P : stmt -> Prop.
    Hypothesis simple : forall s, ends s <> None -> P s.
    Hypothesis if_ : forall init c t e, Forall P init -> Forall P t -> Forall P e -> P (SIf init c t e).
    Hypothesis for_ : forall init c post body, Forall P init -> Forall P post -> Forall P body -> P (SFor init c post body).
    Hypothesis range_ : forall k v e body, Forall P body -> P (SRange k v e body).
    Hypothesis block_ : forall b, Forall P b -> P (SBlock b).
    Fixpoint stmt_induction (s : stmt) : P s :=
      let all := fix all (l : list stmt) : Forall P l := match l with [] => Forall_nil P | a :: r => Forall_cons a (stmt_induction a) (all r) end in
      match s with
      | SIf i c t e => if_ i c t e (all i) (all t) (all e)
      | SFor i c p b => for_ i c p b (all i) (all p) (all b)
      | SRange k v e b => range_ k v e b (all b)
      | SBlock b => block_ b (all b)
      | SAssign l r => simple (SAssign l r) ltac:(discriminate)
      | SExpr e => simple (SExpr e) ltac:(discriminate)
      | SReturn es => simple (SReturn es) ltac:(discriminate)
      | SBreak => simple SBreak ltac:(discriminate)
      | SContinue => simple SContinue ltac:(discriminate)
      | SGoto l => simple (SGoto l) ltac:(discriminate)
      | SLabel l => simple (SLabel l) ltac:(discriminate)
      | SDefer b => simple (SDefer b) ltac:(discriminate)
      | SDelete m k => simple (SDelete m k) ltac:(discriminate)
      | SCopy d e => simple (SCopy d e) ltac:(discriminate)
      end.
  End Induction.

  Definition leave_of (f : flow) : leave :=
    match f with FNext => LvNext | FBreak => LvBreak | FContinue => LvContinue | FGoto l => LvGoto l | FRet _ => LvReturn end.

  Section Runs.
    Variable kind : string -> option bool.
    Variable embedded : string -> list string.
    Variable globals : string -> option val.
    Variable call : string -> list val -> heap -> res (list val) * heap.
    Variable fuel : nat.
    Notation EX := (exec kind embedded globals call fuel).
    Definition follows (s : stmt) : Prop := forall st fl st', EX s st = (Ok fl, st') -> exists t, path s t (leave_of fl).
    Definition follow (ss : list stmt) : Prop := forall skip st fl st', run_block EX skip ss st = (Ok fl, st') -> exists t, block skip ss t (leave_of fl).

    Lemma bind_ok A B (m : X A) (k : A -> X B) st b st' : xbind m k st = (Ok b, st') -> exists a st1, m st = (Ok a, st1) /\ k a st1 = (Ok b, st').
    Proof. unfold xbind. destruct (m st) as [[a|e| |] st1]; try discriminate. eauto. Qed.
    Lemma scope_ok A f (m : X A) st a st' : x_scope f m st = (Ok a, st') -> exists st1 st2, m st1 = (Ok a, st2).
    Proof. unfold x_scope. destruct (m _) as [r st2] eqn:E. intros H. injection H as -> _. eauto. Qed.

    Lemma follow_block ss : Forall follows ss -> follow ss.
    Proof.
      induction 1 as [|s r Hs _ IH]; intros skip st fl st' H.
      - cbn in H. injection H as <- _. exists []. destruct skip; constructor.
      - destruct skip as [g|]; cbn [run_block] in H.
        + assert (S : run_block EX (Some g) r st = (Ok fl, st') -> s <> SLabel g -> exists t, block (Some g) (s :: r) t (leave_of fl)).
          { intros X N. destruct (IH _ _ _ _ X) as (t & P). exists t. now constructor. }
          destruct s; try (apply S; [exact H|discriminate]).
          destruct (name_eqb g l) eqn:N.
          * change name_eqb with String.eqb in N. apply String.eqb_eq in N. subst l. destruct (IH _ _ _ _ H) as (t & P). exists t. now constructor.
          * apply S; [exact H|]. intros X. injection X as ->. change name_eqb with String.eqb in N. rewrite String.eqb_refl in N. discriminate.
        + apply bind_ok in H. destruct H as (f1 & st1 & H1 & H2). destruct (Hs _ _ _ H1) as (t1 & P1). destruct f1; cbn [leave_of] in P1.
          * destruct (IH _ _ _ _ H2) as (t2 & P2). exists (t1 ++ t2). econstructor; eassumption.
          * injection H2 as <- _. exists t1. apply B_out; [exact P1|discriminate|discriminate].
          * injection H2 as <- _. exists t1. apply B_out; [exact P1|discriminate|discriminate].
          * destruct (IH _ _ _ _ H2) as (t2 & P2). exists (t1 ++ t2). eapply B_goto; eassumption.
          * injection H2 as <- _. exists t1. apply B_out; [exact P1|discriminate|discriminate].
    Qed.

    Lemma follow_turns c post body (Hp : follow post) (Hb : follow body) n : forall st fl st',
      loop (xdo v <- eval kind embedded globals call c ;; xlift (v_bool v)) (x_scope [] (run_block EX None body)) (run_block EX None post) n st = (Ok fl, st') ->
      exists t, turns c post body t (leave_of fl).
    Proof.
      induction n as [|n IH]; intros st fl st' H; [discriminate H|]. cbn [loop] in H. apply bind_ok in H. destruct H as (b & st1 & _ & H).
      destruct b; [|injection H as <- _; eexists; apply T_end].
      apply bind_ok in H. destruct H as (f1 & st2 & H1 & H). apply scope_ok in H1. destruct H1 as (? & ? & H1). destruct (Hb _ _ _ _ H1) as (t1 & P1).
      assert (G : goes_on (leave_of f1) = true -> (xdo _ <- run_block EX None post ;; loop (xdo v <- eval kind embedded globals call c ;; xlift (v_bool v)) (x_scope [] (run_block EX None body)) (run_block EX None post) n) st2 = (Ok fl, st') -> exists t, turns c post body t (leave_of fl)).
      { intros G X. apply bind_ok in X. destruct X as (f2 & st3 & H2 & X). destruct (Hp _ _ _ _ H2) as (t2 & P2). destruct (IH _ _ _ X) as (t3 & P3). eexists. eapply T_next; eassumption. }
      destruct f1; cbn [leave_of] in *.
      - exact (G eq_refl H).
      - injection H as <- _. eexists. apply T_break, P1.
      - exact (G eq_refl H).
      - injection H as <- _. eexists. eapply T_out; [exact P1|reflexivity].
      - injection H as <- _. eexists. eapply T_out; [exact P1|reflexivity].
    Qed.
    Lemma follow_each k v body (Hb : follow body) l : forall st fl st',
      range_loop (fun p => x_scope (bind_name k (fst p) (bind_name v (snd p) [])) (x_scope [] (run_block EX None body))) l st = (Ok fl, st') ->
      exists t, each body t (leave_of fl).
    Proof.
      induction l as [|p l IH]; intros st fl st' H; [injection H as <- _; eexists; apply E_end|]. cbn [range_loop] in H.
      apply bind_ok in H. destruct H as (f1 & st2 & H1 & H). apply scope_ok in H1. destruct H1 as (? & ? & H1). apply scope_ok in H1. destruct H1 as (? & ? & H1). destruct (Hb _ _ _ _ H1) as (t1 & P1).
      destruct f1; cbn [leave_of] in *.
      - destruct (IH _ _ _ H) as (t2 & P2). eexists. eapply E_next; [exact P1|reflexivity|exact P2].
      - injection H as <- _. eexists. apply E_break, P1.
      - destruct (IH _ _ _ H) as (t2 & P2). eexists. eapply E_next; [exact P1|reflexivity|exact P2].
      - injection H as <- _. eexists. eapply E_out; [exact P1|reflexivity].
      - injection H as <- _. eexists. eapply E_out; [exact P1|reflexivity].
    Qed.

    Lemma simple_follows s l : ends s = Some l -> (forall st fl st', EX s st = (Ok fl, st') -> leave_of fl = l) -> follows s.
    Proof. intros E H st fl st' X. rewrite (H _ _ _ X). eexists. now apply P_simple. Qed.
    Lemma run_follows s : follows s.
    Proof.
      induction s as [s Hs|init c t e I1 I2 I3|init c post body I1 I2 I3|k v e body I1|b I1] using stmt_induction.
      - (* simple *) destruct (ends s) as [l|] eqn:E; [|congruence]. apply (simple_follows _ _ E). clear Hs. intros st fl st' H.
        destruct s; cbn in E; try discriminate E; injection E as <-; cbn [exec] in H;
          repeat match goal with
          | H : xbind _ _ _ = (Ok _, _) |- _ => apply bind_ok in H; destruct H as (? & ? & ? & H)
          | H : xret _ _ = (Ok _, _) |- _ => injection H as <- _; reflexivity
          | H : (Ok _, _) = (Ok _, _) |- _ => injection H as <- _; reflexivity
          | H : match ?e with _ => _ end _ = (Ok _, _) |- _ => destruct e; try discriminate H
          end.
      - (* if *) intros st fl st' H. cbn [exec] in H. apply scope_ok in H. destruct H as (? & ? & H).
        apply bind_ok in H. destruct H as (f1 & ? & H1 & H). apply bind_ok in H. destruct H as (? & ? & _ & H). apply bind_ok in H. destruct H as (v & ? & _ & H).
        apply scope_ok in H. destruct H as (? & ? & H).
        destruct (follow_block _ I1 _ _ _ _ H1) as (t1 & P1).
        assert (exists t2, block None (if v then t else e) t2 (leave_of fl)) as (t2 & P2) by (destruct v; [exact (follow_block _ I2 _ _ _ _ H)|exact (follow_block _ I3 _ _ _ _ H)]).
        eexists. eapply P_if; eassumption.
      - (* for *) intros st fl st' H. cbn [exec] in H. apply scope_ok in H. destruct H as (? & ? & H). apply bind_ok in H. destruct H as (f1 & ? & H1 & H).
        destruct (follow_block _ I1 _ _ _ _ H1) as (t1 & P1). destruct (follow_turns _ _ _ (follow_block _ I2) (follow_block _ I3) _ _ _ _ H) as (t2 & P2).
        eexists. eapply P_for; eassumption.
      - (* range *) intros st fl st' H. cbn [exec] in H. apply bind_ok in H. destruct H as (? & ? & _ & H). apply bind_ok in H. destruct H as (l & ? & _ & H).
        destruct (follow_each _ _ _ (follow_block _ I1) _ _ _ _ H) as (t & P). eexists. apply P_range, P.
      - (* block *) intros st fl st' H. cbn [exec] in H. apply scope_ok in H. destruct H as (? & ? & H). destruct (follow_block _ I1 _ _ _ _ H) as (t & P).
        eexists. apply P_block, P.
    Qed.
  End Runs.

  (* ---- the condition ---- *)

  (* Nothing is written while something else refers to the slice or map; [d]: something
     does. *)
  Fixpoint unshared (d : bool) (t : list event) : Prop :=
    match t with
    | [] => True
    | Made :: t' => unshared false t'
    | Used :: t' => unshared true t'
    | Written :: t' => d = false /\ unshared d t'
    end.
  Fixpoint after (d : bool) (t : list event) : bool :=
    match t with [] => d | Made :: t' => after false t' | Used :: t' => after true t' | Written :: t' => after d t' end.
  Lemma unshared_app d t1 t2 : unshared d t1 -> unshared (after d t1) t2 -> unshared d (t1 ++ t2).
  Proof. revert d. induction t1 as [|[] t1 IH]; intros d; cbn; auto. intros (A & B) C. auto. Qed.
  Lemma after_app d t1 t2 : after d (t1 ++ t2) = after (after d t1) t2.
  Proof. revert d. induction t1 as [|[] t1 IH]; intros d; cbn; auto. Qed.

  (* ---- a check ---- *)

  (* None: no path comes here. *)
  Definition lev := option bool.
  Definition join (a b : lev) : lev :=
    match a, b with Some x, Some y => Some (x || y) | None, _ => b | _, None => a end.
  Definition below (d : bool) (a : lev) : Prop := exists b, a = Some b /\ (d = true -> b = true).
  Definition leqb (a b : lev) : bool :=
    match a, b with None, _ => true | Some _, None => false | Some x, Some y => implb x y end.
  Lemma below_l d a b : below d a -> below d (join a b).
  Proof. intros (x & -> & H). destruct b; cbn; eexists; split; try reflexivity; intros E; rewrite ?(H E); auto. Qed.
  Lemma below_r d a b : below d b -> below d (join a b).
  Proof. intros (x & -> & H). destruct a; cbn; eexists; split; try reflexivity; intros E; rewrite ?(H E), ?orb_true_r; auto. Qed.
  Lemma below_le d a b : below d a -> leqb a b = true -> below d b.
  Proof. intros (x & -> & H) L. destruct b as [y|]; [|discriminate L]. exists y. split; [reflexivity|]. intros E. specialize (H E). subst. exact L. Qed.

  Fixpoint run_events (a : bool) (t : list event) : option bool :=
    match t with
    | [] => Some a
    | Made :: t' => run_events false t'
    | Used :: t' => run_events true t'
    | Written :: t' => if a then None else run_events a t'
    end.
  Lemma run_events_ok t : forall a b d, run_events a t = Some b -> (d = true -> a = true) -> unshared d t /\ (after d t = true -> b = true).
  Proof.
    induction t as [|[] t IH]; intros a b d H L; cbn in *.
    - injection H as <-. auto.
    - apply (IH _ _ _ H). discriminate.
    - apply (IH _ _ _ H). auto.
    - destruct a; [discriminate H|]. destruct d; [discriminate (L eq_refl)|]. destruct (IH _ _ false H L). auto.
  Qed.

  Notation "'ado' x <- m ;; k" := (match m with Some x => k | None => None end) (at level 200, x pattern, m at level 100, k at level 200).
  (* Where the statement is left to the next one, and where it is left otherwise. *)
  Definition flows := option (lev * lev).
  Section Block.
    Variable an : stmt -> bool -> flows.
    (* [out]: what may come to a label further down. *)
    Fixpoint an_block (a out : lev) (ss : list stmt) : flows :=
      match ss with
      | [] => Some (a, out)
      | s :: r =>
          match s with
          | SLabel _ => an_block (join a out) out r
          | _ => match a with
                 | None => an_block None out r
                 | Some d => ado (n, o) <- an s d ;; an_block n (join out o) r
                 end
          end
      end.
    (* From d, the body once and then from wherever it may come back. *)
    Definition an_loop (body : bool -> flows) (d : bool) : flows :=
      ado (n1, o1) <- body d ;;
      match join (Some d) (join n1 o1) with
      | Some i =>
          ado (n2, o2) <- body i ;;
          if leqb (join n2 o2) (Some i) then Some (Some i, o2) else None
      | None => None
      end.
  End Block.
  Definition on (a : lev) (k : bool -> flows) : flows := match a with Some d => k d | None => Some (None, None) end.
  Fixpoint an (s : stmt) (d : bool) : flows :=
    match s with
    | SIf init c t e =>
        ado (n, o) <- an_block an (Some d) None init ;;
        on (join n o) (fun d => ado d <- run_events d (cond c) ;;
          ado (n1, o1) <- an_block an (Some d) None t ;;
          ado (n2, o2) <- an_block an (Some d) None e ;;
          Some (join n1 n2, join o1 o2))
    | SFor init c post body =>
        ado (n, o) <- an_block an (Some d) None init ;;
        on (join n o) (fun d => ado (a, o) <- an_loop (fun d =>
            ado d <- run_events d (cond c) ;;
            ado (n1, o1) <- an_block an (Some d) None body ;;
            ado (n2, o2) <- an_block an (join n1 o1) None post ;;
            Some (join (Some d) (join n1 n2), join o1 o2)) d ;; Some (a, o))
    | SRange k v e body =>
        ado d <- run_events d (ranged e) ;; an_loop (fun d => ado (n, o) <- an_block an (Some d) None body ;; Some (n, o)) d
    | SBlock b => an_block an (Some d) None b
    | _ => ado d' <- run_events d (does s) ;;
           match ends s with Some LvNext => Some (Some d', None) | _ => Some (None, Some d') end
    end.

  Definition lands (l : leave) (n o : lev) : lev := match l with LvNext => n | _ => o end.
  Definition path_ok (s : stmt) (t : list event) (l : leave) : Prop :=
    forall a d n o, an s a = Some (n, o) -> (d = true -> a = true) -> unshared d t /\ below (after d t) (lands l n o).
  Definition block_ok (g : option string) (ss : list stmt) (t : list event) (l : leave) : Prop :=
    forall a out d n o, an_block an a out ss = Some (n, o) -> below d (match g with None => a | Some _ => out end) ->
    unshared d t /\ below (after d t) (lands l n o).
  Definition for_body (c : expr) (post body : list stmt) (d : bool) : flows :=
    ado d <- run_events d (cond c) ;;
    ado (n1, o1) <- an_block an (Some d) None body ;;
    ado (n2, o2) <- an_block an (join n1 o1) None post ;;
    Some (join (Some d) (join n1 n2), join o1 o2).
  Definition turns_ok (c : expr) (post body : list stmt) (t : list event) (l : leave) : Prop :=
    forall i n o d, for_body c post body i = Some (n, o) -> leqb (join n o) (Some i) = true -> (d = true -> i = true) ->
    unshared d t /\ below (after d t) (lands l (Some i) o).
  Definition each_ok (body : list stmt) (t : list event) (l : leave) : Prop :=
    forall i n o d, an_block an (Some i) None body = Some (n, o) -> leqb (join n o) (Some i) = true -> (d = true -> i = true) ->
    unshared d t /\ below (after d t) (lands l (Some i) o).

  Lemma leqb_refl a : leqb a a = true.
  Proof. destruct a as [[]|]; reflexivity. Qed.
  Lemma leqb_trans a b c : leqb a b = true -> leqb b c = true -> leqb a c = true.
  Proof. destruct a as [[]|], b as [[]|], c as [[]|]; cbn; congruence. Qed.
  Lemma leqb_join a b : leqb a (join a b) = true.
  Proof. destruct a as [[]|], b as [[]|]; reflexivity. Qed.
  Lemma leqb_join_r a b : leqb b (join a b) = true.
  Proof. destruct a as [[]|], b as [[]|]; reflexivity. Qed.
  Lemma an_block_out ss : forall a out n o, an_block an a out ss = Some (n, o) -> leqb out o = true.
  Proof.
    induction ss as [|s r IH]; intros a out n o H; cbn [an_block] in H; [injection H as <- <-; apply leqb_refl|].
    assert (G : match a with None => an_block an None out r | Some d => ado (n, o) <- an s d ;; an_block an n (join out o) r end = Some (n, o) -> leqb out o = true).
    { destruct a as [d|]; [|apply IH]. destruct (an s d) as [[n1 o1]|]; [|discriminate]. intros X. eapply leqb_trans; [apply leqb_join|exact (IH _ _ _ _ X)]. }
    destruct s; try exact (G H). exact (IH _ _ _ _ H).
  Qed.
  Lemma below_in d i : (d = true -> i = true) -> below d (Some i).
  Proof. intros H. exists i. auto. Qed.
  Lemma below_out d i : below d (Some i) -> d = true -> i = true.
  Proof. intros (x & E & H). injection E as <-. exact H. Qed.
  Lemma below_lands d l n o : below d (lands l n o) -> below d (join n o).
  Proof. destruct l; cbn; intros H; first [apply below_l; exact H|apply below_r; exact H]. Qed.

  Lemma an_simple s l a : ends s = Some l -> an s a = (ado d' <- run_events a (does s) ;; match l with LvNext => Some (Some d', None) | _ => Some (None, Some d') end).
  Proof. destruct s; cbn; intros E; try discriminate E; injection E as <-; reflexivity. Qed.
  Lemma an_block_cons s r a out : (forall g, s <> SLabel g) ->
    an_block an a out (s :: r) = match a with None => an_block an None out r | Some d => ado (n, o) <- an s d ;; an_block an n (join out o) r end.
  Proof. intros H. destruct s; try reflexivity. exfalso. exact (H _ eq_refl). Qed.

  Lemma paths_sound :
    (forall s t l, path s t l -> path_ok s t l) /\ (forall g ss t l, block g ss t l -> block_ok g ss t l) /\
    (forall c post body t l, turns c post body t l -> turns_ok c post body t l) /\ (forall body t l, each body t l -> each_ok body t l).
  Proof.
    apply paths_ind.
    - (* simple *) intros s l E a d n o H L. rewrite (an_simple _ _ _ E) in H.
      destruct (run_events a (does s)) as [d'|] eqn:R; [|discriminate H]. destruct (run_events_ok _ _ _ _ R L) as (A & B).
      split; [exact A|]. destruct l; injection H as <- <-; apply below_in; exact B.
    - (* if *) intros init c t e t1 l1 t2 l b _ I1 _ I2 a d n o H L. cbn [an] in H.
      destruct (an_block an (Some a) None init) as [[n0 o0]|] eqn:E0; [|discriminate H].
      destruct (I1 _ _ _ _ _ E0 (below_in _ _ L)) as (A1 & B1). apply below_lands in B1.
      destruct (join n0 o0) as [d0|]; [|destruct B1 as (? & ? & _); discriminate]. cbn [on] in H.
      destruct (run_events d0 (cond c)) as [d1|] eqn:R; [|discriminate H].
      destruct (run_events_ok _ _ _ _ R (below_out _ _ B1)) as (A2 & B2).
      destruct (an_block an (Some d1) None t) as [[n1 o1]|] eqn:E1; [|discriminate H].
      destruct (an_block an (Some d1) None e) as [[n2 o2]|] eqn:E2; [|discriminate H]. injection H as <- <-.
      assert (X : unshared (after (after d t1) (cond c)) t2 /\ below (after (after (after d t1) (cond c)) t2) (lands l (join n1 n2) (join o1 o2))).
      { destruct b; [destruct (I2 _ _ _ _ _ E1 (below_in _ _ B2)) as (A & B)|destruct (I2 _ _ _ _ _ E2 (below_in _ _ B2)) as (A & B)]; (split; [exact A|]);
          destruct l; cbn [lands] in *; solve [apply below_l, B | apply below_r, B]. }
      destruct X as (A3 & B3). split; [apply unshared_app; [exact A1|apply unshared_app; [exact A2|exact A3]]|]. rewrite !after_app. exact B3.
    - (* for *) intros init c post body t1 l1 t2 l _ I1 _ I2 a d n o H L. cbn [an] in H.
      destruct (an_block an (Some a) None init) as [[n0 o0]|] eqn:E0; [|discriminate H].
      destruct (I1 _ _ _ _ _ E0 (below_in _ _ L)) as (A1 & B1). apply below_lands in B1.
      destruct (join n0 o0) as [d0|]; [|destruct B1 as (? & ? & _); discriminate]. cbn [on] in H.
      change ((ado (a0, o1) <- an_loop (for_body c post body) d0 ;; Some (a0, o1)) = Some (n, o)) in H.
      unfold an_loop in H. destruct (for_body c post body d0) as [[n1 o1]|]; [|discriminate H].
      destruct (join (Some d0) (join n1 o1)) as [i|] eqn:J; [|discriminate H].
      destruct (for_body c post body i) as [[n2 o2]|] eqn:F; [|discriminate H]. destruct (leqb (join n2 o2) (Some i)) eqn:Q; [|discriminate H]. injection H as <- <-.
      assert (B2 : below (after d t1) (Some i)) by (rewrite <- J; apply below_l, B1).
      destruct (I2 _ _ _ _ F Q (below_out _ _ B2)) as (A3 & B3). split; [apply unshared_app; assumption|]. rewrite after_app. exact B3.
    - (* range *) intros k v e body t l _ I a d n o H L. cbn [an] in H.
      destruct (run_events a (ranged e)) as [d0|] eqn:R; [|discriminate H]. destruct (run_events_ok _ _ _ _ R L) as (A1 & B1).
      unfold an_loop in H. destruct (an_block an (Some d0) None body) as [[n1 o1]|]; [|discriminate H].
      destruct (join (Some d0) (join n1 o1)) as [i|] eqn:J; [|discriminate H].
      destruct (an_block an (Some i) None body) as [[n2 o2]|] eqn:F; [|discriminate H]. destruct (leqb (join n2 o2) (Some i)) eqn:Q; [|discriminate H]. injection H as <- <-.
      assert (B2 : below (after d (ranged e)) (Some i)) by (rewrite <- J; apply below_l, below_in, B1).
      destruct (I _ _ _ _ F Q (below_out _ _ B2)) as (A3 & B3). split; [apply unshared_app; assumption|]. rewrite after_app. exact B3.
    - (* block *) intros b t l _ I a d n o H L. cbn [an] in H. exact (I _ _ _ _ _ H (below_in _ _ L)).
    - intros a out d n o H B. injection H as <- <-. split; [exact Logic.I|exact B].
    - intros g a out d n o H B. injection H as <- <-. split; [exact Logic.I|exact B].
    - (* next *) intros s r t1 t2 l P I1 _ I2 a out d n o H B. destruct a as [x|]; [|destruct B as (? & ? & _); discriminate].
      assert (N : (exists g, s = SLabel g) \/ forall g, s <> SLabel g) by (destruct s; try (right; discriminate); left; eexists; reflexivity).
      destruct N as [(g & ->)|N].
      + assert (E : t1 = []) by (inversion P; subst; reflexivity). subst t1. cbn [an_block] in H.
        exact (I2 _ _ _ _ _ H (below_l _ _ _ B)).
      + rewrite (an_block_cons _ _ _ _ N) in H. destruct (an s x) as [[n1 o1]|] eqn:E1; [|discriminate H].
        destruct (I1 _ _ _ _ E1 (below_out _ _ B)) as (A1 & B1). cbn [lands] in B1. destruct (I2 _ _ _ _ _ H B1) as (A2 & B2).
        split; [apply unshared_app; assumption|]. rewrite after_app. exact B2.
    - (* goto *) intros s r t1 t2 g l P I1 _ I2 a out d n o H B. destruct a as [x|]; [|destruct B as (? & ? & _); discriminate].
      assert (N : forall g, s <> SLabel g) by (intros g' ->; inversion P as [? ? X| | | |]; discriminate X).
      rewrite (an_block_cons _ _ _ _ N) in H. destruct (an s x) as [[n1 o1]|] eqn:E1; [|discriminate H].
      destruct (I1 _ _ _ _ E1 (below_out _ _ B)) as (A1 & B1). cbn [lands] in B1. destruct (I2 _ _ _ _ _ H (below_r _ out _ B1)) as (A2 & B2).
      split; [apply unshared_app; assumption|]. rewrite after_app. exact B2.
    - (* out *) intros s r t1 l P I1 N1 _ a out d n o H B. destruct a as [x|]; [|destruct B as (? & ? & _); discriminate].
      assert (N : forall g, s <> SLabel g) by (intros g' ->; inversion P as [? ? X| | | |]; injection X as <-; congruence).
      rewrite (an_block_cons _ _ _ _ N) in H. destruct (an s x) as [[n1 o1]|] eqn:E1; [|discriminate H].
      destruct (I1 _ _ _ _ E1 (below_out _ _ B)) as (A1 & B1). split; [exact A1|]. apply an_block_out in H.
      destruct l; try congruence; cbn [lands] in *; (eapply below_le; [exact B1|]; eapply leqb_trans; [apply leqb_join_r|exact H]).
    - (* skip *) intros s r t g l N _ I a out d n o H B. cbn [an_block] in H.
      assert (G : match a with None => an_block an None out r | Some d => ado (n, o) <- an s d ;; an_block an n (join out o) r end = Some (n, o) -> unshared d t /\ below (after d t) (lands l n o)).
      { destruct a as [x|]; [|intros X; exact (I _ _ _ _ _ X B)]. destruct (an s x) as [[n1 o1]|]; [|discriminate]. intros X. exact (I _ _ _ _ _ X (below_l _ _ _ B)). }
      destruct s; try exact (G H). exact (I _ _ _ _ _ H B).
    - (* label *) intros r t g l _ I a out d n o H B. cbn [an_block] in H. exact (I _ _ _ _ _ H (below_r _ _ _ B)).
    - (* the end of for *) intros c post body i n o d H Q L. unfold for_body in H.
      destruct (run_events i (cond c)) as [d1|] eqn:R; [|discriminate H]. destruct (run_events_ok _ _ _ _ R L) as (A1 & B1). split; [exact A1|]. cbn [lands].
      destruct (an_block an (Some d1) None body) as [[n1 o1]|]; [|discriminate H]. destruct (an_block an (join n1 o1) None post) as [[n2 o2]|]; [|discriminate H]. injection H as <- <-.
      eapply below_le; [exact (below_in _ _ B1)|]. eapply leqb_trans; [|exact Q]. eapply leqb_trans; [apply leqb_join|apply leqb_join].
    - (* a turn *) intros c post body t1 l1 t2 l2 t3 l _ I1 G _ I2 _ I3 i n o d H Q L. pose proof H as H0. unfold for_body in H.
      destruct (run_events i (cond c)) as [d1|] eqn:R; [|discriminate H]. destruct (run_events_ok _ _ _ _ R L) as (A1 & B1).
      destruct (an_block an (Some d1) None body) as [[n1 o1]|] eqn:E1; [|discriminate H]. destruct (an_block an (join n1 o1) None post) as [[n2 o2]|] eqn:E2; [|discriminate H]. injection H as <- <-.
      destruct (I1 _ _ _ _ _ E1 (below_in _ _ B1)) as (A2 & B2). apply below_lands in B2. destruct (I2 _ _ _ _ _ E2 B2) as (A3 & B3). apply below_lands in B3.
      assert (B4 : below (after (after (after d (cond c)) t1) t2) (Some i)).
      { eapply below_le; [exact B3|]. eapply leqb_trans; [|exact Q]. clear. destruct n1 as [[]|], n2 as [[]|], o1 as [[]|], o2 as [[]|], d1; reflexivity. }
      destruct (I3 _ _ _ _ H0 Q (below_out _ _ B4)) as (A5 & B5).
      split; [apply unshared_app; [exact A1|apply unshared_app; [exact A2|apply unshared_app; assumption]]|]. rewrite !after_app. exact B5.
    - (* break *) intros c post body t1 _ I1 i n o d H Q L. unfold for_body in H.
      destruct (run_events i (cond c)) as [d1|] eqn:R; [|discriminate H]. destruct (run_events_ok _ _ _ _ R L) as (A1 & B1).
      destruct (an_block an (Some d1) None body) as [[n1 o1]|] eqn:E1; [|discriminate H]. destruct (an_block an (join n1 o1) None post) as [[n2 o2]|] eqn:E2; [|discriminate H]. injection H as <- <-.
      destruct (I1 _ _ _ _ _ E1 (below_in _ _ B1)) as (A2 & B2). cbn [lands] in *. split; [apply unshared_app; assumption|]. rewrite after_app.
      eapply below_le; [exact B2|]. eapply leqb_trans; [|exact Q]. clear. destruct n1 as [[]|], n2 as [[]|], o1 as [[]|], o2 as [[]|], d1; reflexivity.
    - (* out of the loop *) intros c post body t1 l _ I1 G i n o d H Q L. unfold for_body in H.
      destruct (run_events i (cond c)) as [d1|] eqn:R; [|discriminate H]. destruct (run_events_ok _ _ _ _ R L) as (A1 & B1).
      destruct (an_block an (Some d1) None body) as [[n1 o1]|] eqn:E1; [|discriminate H]. destruct (an_block an (join n1 o1) None post) as [[n2 o2]|] eqn:E2; [|discriminate H]. injection H as <- <-.
      destruct (I1 _ _ _ _ _ E1 (below_in _ _ B1)) as (A2 & B2). split; [apply unshared_app; assumption|]. rewrite after_app.
      destruct l; try discriminate G; cbn [lands] in *; apply below_l; exact B2.
    - intros body i n o d H Q L. split; [exact Logic.I|]. cbn [lands after]. apply below_in, L.
    - intros body t1 l1 t2 l _ I1 G _ I2 i n o d H Q L. destruct (I1 _ _ _ _ _ H (below_in _ _ L)) as (A1 & B1). apply below_lands in B1.
      pose proof (below_le _ _ _ B1 Q) as B2. destruct (I2 _ _ _ _ H Q (below_out _ _ B2)) as (A3 & B3). split; [apply unshared_app; assumption|]. rewrite after_app. exact B3.
    - intros body t1 _ I1 i n o d H Q L. destruct (I1 _ _ _ _ _ H (below_in _ _ L)) as (A1 & B1). apply below_lands in B1. split; [exact A1|]. cbn [lands]. exact (below_le _ _ _ B1 Q).
    - intros body t1 l _ I1 G i n o d H Q L. destruct (I1 _ _ _ _ _ H (below_in _ _ L)) as (A1 & B1). split; [exact A1|]. destruct l; try discriminate G; exact B1.
  Qed.

  (* The check of a function. *)
  Definition checked (ss : list stmt) : bool := match an_block an (Some false) None ss with Some _ => true | None => false end.
  Theorem checked_ok ss : checked ss = true -> forall t l, block None ss t l -> unshared false t.
  Proof.
    unfold checked. destruct (an_block an (Some false) None ss) as [[n o]|] eqn:E; [|discriminate]. intros _ t l P.
    exact (proj1 (proj1 (proj2 paths_sound) _ _ _ _ P _ _ _ _ _ E (below_in _ _ (fun x => x)))).
  Qed.
End Paths.
