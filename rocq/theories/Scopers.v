(* Any implementation of the Scoper interface (query/scoper.go:9-34) behind a
   context: the encodings with their calls of the scoper left open. *)
From Verif Require Import GoBase Cnf Query Walk Atoms Logop.
Local Open Scope string_scope.
Local Open Scope Z_scope.
Local Open Scope list_scope.

(* query/scoper.go:10-33 without Reset, which no encoding calls.  ScopeVar may
   panic; it and ScopeConst are taken not to change the scoper. *)
Record impl := mkImpl {
  st : Type;
  i_ScopeVar : st -> QVar -> res QVar;
  i_AddVar : st -> QVar -> st;
  i_ScopeConst : st -> QConst -> QConst * bool;
  i_AddScope : st -> string -> st;
  i_PopScope : st -> option string * st;
  i_SetScope : st -> Z -> list FeatV -> option string * st }.

(* The Encoding methods of predicates/ and extensions/: [atom_enc] of Atoms.v, which
   cites the lines, with the scoper's answers as arguments. *)
Definition satom_enc (sv : QVar -> res QVar) (sc : QConst -> QConst) (M : model) (a : atom) : res aout :=
  let dim := Dim M in
  let d := Z.of_nat dim in
  let nodes := Nodes M in
  let dims := ValidateConstsDim dim in
  match a with
  (* predicates/subsumption/var_var.go:18-43 *)
  | SubsVV v1 v2 =>
      rdo v1 <- sv v1 ;; rdo v2 <- sv v2 ;;
      Ok (AEmit [EFrom (subs_vv d v1 v2)])
  (* predicates/subsumption/var_const.go:18-54 *)
  | SubsVC v c =>
      rdo v <- sv v ;;
      guard (dims [sc c]) (Ok (AEmit [EFrom (subs_vc v (cVal (sc c)))]))
  (* predicates/subsumption/const_var.go:18-41 *)
  | SubsCV c v =>
      rdo v <- sv v ;;
      guard (dims [sc c]) (Ok (AEmit [EFrom (subs_cv (cVal (sc c)) v)]))
  (* predicates/subsumption/const_const.go:18-41 *)
  | SubsCC c1 c2 =>
      guard (dims [sc c1; sc c2])
        (Ok (ABool (subs_cc (cVal (sc c1)) (cVal (sc c2)))))
  (* predicates/lel/var_var.go:23-55 *)
  | LelVV v1 v2 g =>
      need g nil_gen_err (fun g =>
      rdo v1 <- sv v1 ;; rdo v2 <- sv v2 ;;
      Ok (AEmit ([ECons (varBotCountClauses d v1 (g v1));
                  ECons (varBotCountClauses d v2 (g v2))]
                 ++ map (fun cl => ESem [cl]) (lel_vv_sem d (g v1) (g v2)))))
  (* predicates/lel/var_const.go:23-49 *)
  | LelVC v c g =>
      need g nil_gen_err (fun g =>
      rdo v <- sv v ;;
      guard (dims [sc c])
      (Ok (AEmit (ECons (varBotCountClauses d v (g v))
                  :: map (fun cl => ESem [cl]) (lel_vc_sem d (g v) (sc c))))))
  (* predicates/lel/const_var.go:23-49 *)
  | LelCV c v g =>
      need g nil_gen_err (fun g =>
      rdo v <- sv v ;;
      guard (dims [sc c])
      (Ok (AEmit (ECons (varBotCountClauses d v (g v))
                  :: map (fun cl => ESem [cl]) (lel_cv_sem d (g v) (sc c))))))
  (* predicates/lel/const_const.go:20-37 *)
  | LelCC c1 c2 =>
      guard (dims [sc c1; sc c2])
        (Ok (ABool (negb (BotCount (sc c1) <? BotCount (sc c2)))))
  (* predicates/isnode/var.go:20-96 *)
  | NodeV v g =>
      need g nil_gen_err (fun g =>
      match nodes with
      | [] => Err empty_model_err
      | _ =>
          rdo v <- sv v ;;
          let r := g v in
          rdo fcl <- isnode_fcl d nodes v r ;;
          Ok (AEmit ([EAlloc (isnode_fcl_alloc d nodes v r); ESem fcl;
                      ECons [[Lp r 0 0]]]
                     ++ concat (mapi (fun i n =>
                          if IsLeaf n then []
                          else [ECons (isnode_reach v r i n)]) nodes)))
      end)
  (* predicates/isnode/const.go:18-88 *)
  | NodeC c => guard (dims [sc c]) (rbool (isnode_const dim nodes (sc c)))
  (* extensions/full/var.go:17-33 *)
  | FullV v => rdo v <- sv v ;; Ok (AEmit [EFrom (full_v d v)])
  (* extensions/full/const.go:17-34 *)
  | FullC c => guard (dims [sc c]) (Ok (ABool (full_c (cVal (sc c)))))
  (* extensions/cons/var_var.go:19-44 *)
  | ConsVV v1 v2 =>
      rdo v1 <- sv v1 ;; rdo v2 <- sv v2 ;;
      Ok (AEmit [EFrom (cons_vv d v1 v2)])
  (* extensions/cons/var_const.go:19-51; FromClauses of no clauses is TrueCNF *)
  | ConsVC v c =>
      rdo v <- sv v ;;
      guard (dims [sc c]) (Ok (AEmit [EFrom (cons_vc v (cVal (sc c)))]))
  (* extensions/cons/const_var.go:19-51 *)
  | ConsCV c v =>
      rdo v <- sv v ;;
      guard (dims [sc c]) (Ok (AEmit [EFrom (cons_vc v (cVal (sc c)))]))
  (* extensions/cons/const_const.go:19-44 *)
  | ConsCC c1 c2 =>
      guard (dims [sc c1; sc c2])
        (Ok (ABool (cons_cc (cVal (sc c1)) (cVal (sc c2)))))
  (* extensions/allcomp/var.go:24-98 *)
  | AllV v b g =>
      need g nil_gen_err (fun g =>
      match nodes with
      | [] => Err empty_model_err
      | _ =>
          rdo v <- sv v ;;
          let r := g v in
          Ok (AEmit (ECons [[Lp r 0 0]]
                     :: concat (mapi (allcomp_node v r b) nodes)))
      end)
  (* extensions/allcomp/const.go:22-84 *)
  | AllC c b => guard (dims [sc c]) (rbool (allcomp_const dim nodes (sc c) b))
  (* extensions/dfs/var.go:17-47; leafsAsConsts indexes walk[0], so an empty
     model panics before the check of lines 29-31 *)
  | DfsV v =>
      rdo v <- sv v ;;
      rdo pn <- leafsAsConsts dim nodes ;;
      let (pleaf, nleaf) := pn in
      if (length pleaf =? 0)%nat && (length nleaf =? 0)%nat
      then Err empty_model_err
      else
        rdo cls <- dfs_var_loop dim v (list_prod pleaf nleaf) ;;
        Ok (AEmit [EFrom cls])
  (* extensions/dfs/const.go:17-50 *)
  | DfsC c =>
      guard (dims [sc c])
      (rdo pn <- leafsAsConsts dim nodes ;;
       let (pleaf, nleaf) := pn in
       if (length pleaf =? 0)%nat && (length nleaf =? 0)%nat
       then Err empty_model_err
       else rbool (dfs_const_loop (sc c) (list_prod pleaf nleaf)))
  (* extensions/hepr/var_var.go:25-101; Preference[-1] panics *)
  | HeprVV v1 v2 pref g =>
      need g nil_gen_err (fun g =>
      guard (validatePref pref dim)
      (rdo v1 <- sv v1 ;; rdo v2 <- sv v2 ;;
       let h := g (prefVar pref) v1 v2 in
       match pref with
       | [] => Panic
       | _ => Ok (AEmit (hepr_vv v1 v2 h pref))
       end))
  (* extensions/hepr/var_const.go:25-109 *)
  | HeprVC v c pref g =>
      need g nil_gen_err (fun g =>
      guard (validatePref pref dim)
      (rdo v <- sv v ;;
       let h := g (prefVar pref) v (AsString (sc c)) in
       guard (dims [sc c])
       match pref with
       | [] => Panic
       | _ => Ok (AEmit (hepr_vc v (cVal (sc c)) h pref))
       end))
  (* extensions/hepr/const_var.go:25-110 *)
  | HeprCV c v pref g =>
      need g nil_gen_err (fun g =>
      guard (validatePref pref dim)
      (rdo v <- sv v ;;
       let h := g (prefVar pref) (AsString (sc c)) v in
       guard (dims [sc c])
       match pref with
       | [] => Panic
       | _ => Ok (AEmit (hepr_cv (cVal (sc c)) v h pref))
       end))
  (* extensions/hepr/const_const.go:21-50 *)
  | HeprCC c1 c2 pref =>
      guard (validatePref pref dim)
      (guard (dims [sc c1; sc c2])
       (Ok (ABool (hepr_cc (cVal (sc c1)) (cVal (sc c2)) pref))))
  (* extensions/leh/var_var_var.go:30-71 *)
  | LehVVV v1 v2 v3 hd ef =>
      need hd nil_gen_err (fun hd => need ef nil_gen_err (fun ef =>
      rdo v1 <- sv v1 ;; rdo v2 <- sv v2 ;;
      rdo v3 <- sv v3 ;;
      Ok (AEmit
        ([ESem (full_v d v1); ESem (full_v d v2); ESem (full_v d v3);
          ECons (fullVarEqualClauses d v1 v2 (ef v1 v2));
          ECons (fullVarEqualClauses d v1 v3 (ef v1 v3));
          ECons (hammingDistVV d (hd v1 v2) (ef v1 v2));
          ECons (hammingDistVV d (hd v1 v3) (ef v1 v3))]
         ++ map (fun cl => ESem [cl]) (leh_sem d (hd v1 v2) (hd v1 v3))))))
  (* extensions/leh/var_var_const.go:28-77 *)
  | LehVVC v1 v2 c hd ef =>
      need hd nil_gen_err (fun hd => need ef nil_gen_err (fun ef =>
      rdo v1 <- sv v1 ;; rdo v2 <- sv v2 ;;
      let v1chd := hd v1 (AsString (sc c)) in
      guard (dims [sc c])
      (if negb (IsFull (sc c)) then Ok (ABool false)
       else first_feat dim
         (let cls := hammingDistVC d v1 (cVal (sc c)) v1chd in
         Ok (AEmit
          ([ESem (full_v d v1); ESem (full_v d v2); EAlloc (clause_vars cls);
            ECons (fullVarEqualClauses d v1 v2 (ef v1 v2));
            ECons (hammingDistVV d (hd v1 v2) (ef v1 v2));
            ECons cls]
           ++ map (fun cl => ESem [cl]) (leh_sem d (hd v1 v2) v1chd)))))))
  (* extensions/leh/var_const_var.go:31-81 *)
  | LehVCV v1 c v2 hd ef =>
      need hd nil_gen_err (fun hd => need ef nil_gen_err (fun ef =>
      rdo v1 <- sv v1 ;; rdo v2 <- sv v2 ;;
      let v1chd := hd v1 (AsString (sc c)) in
      guard (dims [sc c])
      (if negb (IsFull (sc c)) then Ok (ABool false)
       else first_feat dim
         (let cls := hammingDistVC d v1 (cVal (sc c)) v1chd in
         Ok (AEmit
          ([ESem (full_v d v1); ESem (full_v d v2); EAlloc (clause_vars cls);
            ECons (fullVarEqualClauses d v1 v2 (ef v1 v2));
            ECons (hammingDistVV d (hd v1 v2) (ef v1 v2));
            ECons cls]
           ++ map (fun cl => ESem [cl]) (leh_sem d v1chd (hd v1 v2))))))))
  (* extensions/leh/const_var_var.go:26-78 *)
  | LehCVV c v1 v2 hd =>
      need hd nil_gen_err (fun hd =>
      rdo v1 <- sv v1 ;; rdo v2 <- sv v2 ;;
      let v1chd := hd v1 (AsString (sc c)) in
      let v2chd := hd v2 (AsString (sc c)) in
      guard (dims [sc c])
      (if negb (IsFull (sc c)) then Ok (ABool false)
       else first_feat dim
         (Ok (AEmit
          ([ESem (full_v d v1); ESem (full_v d v2);
            ECons (hammingDistVC d v1 (cVal (sc c)) v1chd);
            ECons (hammingDistVC d v2 (cVal (sc c)) v2chd)]
           ++ map (fun cl => ESem [cl]) (leh_sem d v1chd v2chd))))))
  (* extensions/leh/var_const_const.go:27-76 *)
  | LehVCC v c1 c2 hd =>
      need hd nil_gen_err (fun hd =>
      rdo v <- sv v ;;
      let vc1hd := hd v (AsString (sc c1)) in
      let vc2hd := hd v (AsString (sc c2)) in
      guard (dims [sc c1; sc c2])
      (if negb (IsFull (sc c1)) || negb (IsFull (sc c2)) then Ok (ABool false)
       else first_feat dim
         (Ok (AEmit
          ([EFrom (full_v d v);
            ECons (hammingDistVC d v (cVal (sc c1)) vc1hd);
            ECons (hammingDistVC d v (cVal (sc c2)) vc2hd)]
           ++ map (fun cl => ESem [cl]) (leh_sem d vc1hd vc2hd))))))
  (* extensions/leh/const_var_const.go:27-74; the distance variable is named
     after the third operand but measures the distance to the first (sic) *)
  | LehCVC c1 v c2 hd =>
      need hd nil_gen_err (fun hd =>
      rdo v <- sv v ;;
      let vc1hd := hd v (AsString (sc c2)) in
      guard (dims [sc c1; sc c2])
      (if negb (IsFull (sc c1)) || negb (IsFull (sc c2)) then Ok (ABool false)
       else
         let cchd := hammingDistCC (cVal (sc c1)) (cVal (sc c2)) in
         if cchd =? d then Ok (ABool true)
         else
           Ok (AEmit
            ([EFrom (full_v d v);
              ECons (hammingDistVC d v (cVal (sc c1)) vc1hd)]
             ++ map (fun i => ESem [[Ln vc1hd (d - 1) i]])
                  (zrange (cchd + 1) (d + 1))))))
  (* extensions/leh/const_const_var.go:27-74 *)
  | LehCCV c1 c2 v hd =>
      need hd nil_gen_err (fun hd =>
      rdo v <- sv v ;;
      let vc1hd := hd v (AsString (sc c1)) in
      guard (dims [sc c1; sc c2])
      (if negb (IsFull (sc c1)) || negb (IsFull (sc c2)) then Ok (ABool false)
       else
         let cchd := hammingDistCC (cVal (sc c1)) (cVal (sc c2)) in
         if cchd =? 0 then Ok (ABool true)
         else
           Ok (AEmit
            ([EFrom (full_v d v);
              ECons (hammingDistVC d v (cVal (sc c1)) vc1hd)]
             ++ map (fun i => ESem [[Ln vc1hd (d - 1) i]]) (zrange 0 cchd)))))
  (* extensions/leh/const_const_const.go:21-57 *)
  | LehCCC c1 c2 c3 =>
      guard (dims [sc c1; sc c2; sc c3])
      (if negb (IsFull (sc c1)) || negb (IsFull (sc c2)) || negb (IsFull (sc c3))
       then Ok (ABool false)
       else
         Ok (ABool
              (negb (hammingDistCC (cVal (sc c1)) (cVal (sc c3))
                     <? hammingDistCC (cVal (sc c1)) (cVal (sc c2))))))
  end.

(* it is the same *)
Lemma satom_enc_same c a : atom_enc c a = satom_enc (ScopeVar (cScoper c)) (fun k => fst (ScopeConst (cScoper c) k)) (cModel c) a.
Proof. destruct a; reflexivity. Qed.

Section Enc.
  Variable X : impl.

  Record sctx := mkSctx { sS : st X; sVM : varman; sM : model }.
  Definition SM (A : Type) : Type := sctx -> res A * sctx.
  Definition s_ret {A} (a : A) : SM A := fun c => (Ok a, c).
  Definition s_lift {A} (r : res A) : SM A := fun c => (r, c).
  Definition s_bind {A B} (m : SM A) (f : A -> SM B) : SM B :=
    fun c => match m c with
             | (Ok a, c') => f a c'
             | (Err e, c') => (Err e, c')
             | (Panic, c') => (Panic, c')
             | (Hang, c') => (Hang, c')
             end.
  Definition s_wrap {A} (p : string) (m : SM A) : SM A :=
    fun c => match m c with
             | (Err e, c') => (Err (p ++ ": " ++ e)%string, c')
             | r => r
             end.
  Definition put_S (c : sctx) (s : st X) : sctx := mkSctx s (sVM c) (sM c).
  Definition put_VM (c : sctx) (vm : varman) : sctx := mkSctx (sS c) vm (sM c).

  Definition senc_atom (a : atom) : SM CNF :=
    fun c =>
      match satom_enc (i_ScopeVar X (sS c)) (fun k => fst (i_ScopeConst X (sS c) k)) (sM c) a with
      | Ok (ABool b) => (Ok (if b then TrueCNF else FalseCNF), c)
      | Ok (AEmit es) => let (f, vm) := run_emits (sVM c) es in (Ok f, put_VM c vm)
      | Err e => (Err e, c)
      | Panic => (Panic, c)
      | Hang => (Hang, c)
      end.
  (* logop/with_var.go:60-104 *)
  Definition sencodeI (v : QVar) : SM CNF :=
    s_bind (fun c => (i_ScopeVar X (sS c) v, c)) (fun v c =>
      if CNFVarExists (sVM c) (v, 0, BOT) then (Ok TrueCNF, c)
      else let (f, vm) := run_emits (sVM c) (withvar_emits (Z.of_nat (Dim (sM c))) v) in (Ok f, put_VM c vm)).
  (* logop/not.go:45-48 *)
  Definition s_Negate (f : CNF) : SM CNF :=
    fun c => let g := Negate f (Some (vm_topv (sVM c))) in (Ok g, put_VM c (snd (UpdateTopV (sVM c) (TopV g)))).
  (* logop/forallguarded.go:172-176 *)
  Definition s_defer {A} (m : SM A) : SM A :=
    fun c =>
      let (r, c') := m c in
      match r with
      | Hang => (Hang, c')
      | _ =>
          let (perr, s) := i_PopScope X (sS c') in
          let c'' := put_S c' s in
          match perr, r with
          | None, _ => (r, c'')
          | Some pe, Err e => (Err (e ++ newline ++ pe)%string, c'')
          | Some pe, Ok _ => (Err pe, c'')
          | Some _, r => (r, c'')
          end
      end.
  (* logop/forallguarded.go:184-197 *)
  Fixpoint sforall_loop (fuel : nat) (body : SM CNF) (it : iter) (i : Z) (acc : CNF) : SM CNF :=
    match fuel with
    | O => s_lift Hang
    | S f =>
        s_bind (s_lift (Next it)) (fun r =>
        let '(more, it) := r in
        if (more : bool) then
          s_bind (fun c => let (e, s) := i_SetScope X (sS c) i (it_t it) in
                           (match e with Some e => Err e | None => Ok tt end, put_S c s)) (fun _ =>
          s_bind body (fun icnf =>
          sforall_loop f body it (i + 1) (Conjunction acc icnf)))
        else s_ret acc)
    end.
  (* the Encoding methods of logop/: [enc] of Logop.v, which cites the lines *)
  Fixpoint senc (q : query) : SM CNF :=
    match q with
    | QNil => s_lift Panic
    | QAtom a => senc_atom a
    | QNot q =>
        s_wrap "Not" (if is_nil q then s_lift (Err nil_child_err) else s_bind (senc q) s_Negate)
    | QAnd q1 q2 =>
        s_wrap "And"
          (if is_nil q1 then s_lift (Err (nil_child_err ++ " (1)")%string)
           else if is_nil q2 then s_lift (Err (nil_child_err ++ " (2)")%string)
           else
             s_bind (s_wrap "Q1" (senc q1)) (fun f1 =>
             s_bind (s_wrap "Q2" (senc q2)) (fun f2 =>
             s_ret (Conjunction f1 f2))))
    | QOr q1 q2 =>
        s_wrap "Or"
          (if is_nil q1 then s_lift (Err (nil_child_err ++ " (1)")%string)
           else if is_nil q2 then s_lift (Err (nil_child_err ++ " (2)")%string)
           else
             s_bind (s_wrap "Q1" (senc q1)) (fun f1 =>
             s_bind (s_wrap "Q2" (senc q2)) (fun f2 =>
             s_bind (s_Negate f1) (fun g1 =>
             s_bind (s_Negate f2) (fun g2 =>
             s_Negate (Conjunction g1 g2))))))
    | QWith v q =>
        s_wrap "WithVar"
          (if is_nil q then s_lift (Err nil_child_err)
           else
             s_bind (fun c => (Ok tt, put_S c (i_AddVar X (sS c) v))) (fun _ =>
             s_bind (sencodeI v) (fun fi =>
             s_bind (senc q) (fun f =>
             s_ret (Conjunction fi f)))))
    | QAll k q =>
        s_wrap "ForAllGuarded"
          (if is_nil q then s_lift (Err nil_child_err)
           else
             s_bind (fun c => (Ok tt, put_S c (i_AddScope X (sS c) (cID k)))) (fun _ =>
             s_defer (fun cx =>
               s_bind (s_lift (newNodeAsValuesIter (Dim (sM cx)) (Nodes (sM cx)))) (fun it =>
               sforall_loop (forall_fuel (Nodes (sM cx))) (senc q) it 0 TrueCNF) cx)))
    end.
End Enc.

(* The scoper of the library. *)
Definition base : impl := mkImpl scoper ScopeVar AddVar ScopeConst AddScope PopScope SetScope.
