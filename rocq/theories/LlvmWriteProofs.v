(** The stack of pointers of LLVMProfileBuilder, and what a traversal adds. *)
From Verif Require Import Base AssocFold SymbolModel SymbolSpec SymbolProofs AfdoModel SrcOffsetModel FlattenPureProofs HybridSpec LlvmReadModel LlvmWriteModel LlvmWriteSpec.

Lemma lloc_eqb_spec a b : reflect (a = b) (lloc_eqb a b).
Proof. unfold lloc_eqb. destruct a as [a1 a2], b as [b1 b2]. cbn [fst snd]. destruct (Z.eqb_spec a1 b1), (Z.eqb_spec a2 b2); cbn [andb]; constructor; congruence. Qed.
Lemma lkey_eqb_spec a b : reflect (a = b) (lkey_eqb a b).
Proof. unfold lkey_eqb. destruct a as [a1 a2], b as [b1 b2]. cbn [fst snd]. destruct (lloc_eqb_spec a1 b1), (name_eqb_spec a2 b2); cbn [andb]; constructor; congruence. Qed.
Lemma find_aget {K V} (eqb : K -> K -> bool) (sp : forall a b, reflect (a = b) (eqb a b)) k (m : list (K * V)) :
  match find (fun e => eqb (fst e) k) m with Some (_, v) => Some v | None => None end = aget eqb k m.
Proof.
  induction m as [|[k' v] m IH]; [reflexivity|]. cbn [find aget fst]. destruct (sp k' k) as [->|N]; [destruct (sp k k); [reflexivity|congruence]|]. destruct (sp k k'); [congruence|exact IH].
Qed.
Lemma lnode_fget q : forall f, lnode f q = fget q f.
Proof.
  induction q as [|k q IH]; intros f; [reflexivity|]. cbn [lnode fget]. unfold fchild. rewrite <- (find_aget lkey_eqb lkey_eqb_spec). destruct (find _ _) as [[k' c]|]; [apply IH|reflexivity].
Qed.
Lemma lrecord_aget f l : lrecord f l = aget lloc_eqb l (lf_body f).
Proof. unfold lrecord. apply (find_aget lloc_eqb lloc_eqb_spec). Qed.
Lemma ltarget_aget r t : ltarget r t = aget name_eqb t (snd r).
Proof. unfold ltarget. apply (find_aget name_eqb name_eqb_spec). Qed.

(** *** Pointers *)
Lemma set_child_twice k c d f : set_child k c (set_child k d f) = set_child k c f.
Proof. destruct f. cbn [set_child]. rewrite (aset_aset lkey_eqb lkey_eqb_spec). reflexivity. Qed.
Lemma fchild_set k c f k' : fchild k' (set_child k c f) = if lkey_eqb k' k then Some c else fchild k' f.
Proof. destruct f. unfold fchild. cbn [set_child lf_calls]. apply aget_aset. apply lkey_eqb_spec. Qed.
Lemma fchild_same k c f : fchild k (set_child k c f) = Some c.
Proof. rewrite fchild_set. destruct (lkey_eqb_spec k k); [reflexivity|congruence]. Qed.
Lemma fget_fput q : forall f x y, fget q f = Some y -> fget q (fput q x f) = Some x.
Proof.
  induction q as [|k q IH]; intros f x y; cbn [fget fput]; [reflexivity|]. destruct (fchild k f) as [c|]; [|discriminate]. rewrite fchild_same. apply IH.
Qed.
Lemma fput_fput q : forall f x y, fput q x (fput q y f) = fput q x f.
Proof.
  induction q as [|k q IH]; intros f x y; cbn [fput]; [reflexivity|]. destruct (fchild k f) as [c|] eqn:E; [|rewrite E; reflexivity]. rewrite fchild_same, set_child_twice, IH. reflexivity.
Qed.
Lemma fput_child q k : forall f c d x, fget q f <> None -> fput (q ++ [k]) c (fput q (set_child k d x) f) = fput q (set_child k c x) f.
Proof.
  induction q as [|k0 q IH]; intros f c d x H; cbn [fput app fget] in *.
  - rewrite fchild_same. apply set_child_twice.
  - destruct (fchild k0 f) as [y|] eqn:E; [|congruence]. rewrite fchild_same, set_child_twice, IH by exact H. reflexivity.
Qed.
Lemma fget_app q k : forall f, fget (q ++ [k]) f = match fget q f with Some x => fchild k x | None => None end.
Proof. induction q as [|k0 q IH]; intros f; cbn [app fget]; [destruct (fchild k f); reflexivity|]. destruct (fchild k0 f); [apply IH|reflexivity]. Qed.

Lemma pget_pput p x ps y : pget_ p ps = Some y -> pget_ p (pput p x ps) = Some x.
Proof.
  unfold pget_, pput. destruct (aget name_eqb (fst p) ps) as [f|] eqn:E; [|discriminate]. intros H. rewrite (aget_aset_same name_eqb name_eqb_spec). exact (fget_fput _ f x y H).
Qed.
Lemma pput_pput p x y ps : pput p x (pput p y ps) = pput p x ps.
Proof.
  unfold pput. destruct (aget name_eqb (fst p) ps) as [f|] eqn:E; [|rewrite E; reflexivity]. rewrite (aget_aset_same name_eqb name_eqb_spec), fput_fput, (aset_aset name_eqb name_eqb_spec). reflexivity.
Qed.
Lemma pput_child p k c d x ps : pget_ p ps <> None -> pput (fst p, snd p ++ [k]) c (pput p (set_child k d x) ps) = pput p (set_child k c x) ps.
Proof.
  unfold pget_, pput. cbn [fst snd]. destruct (aget name_eqb (fst p) ps) as [f|] eqn:E; [|congruence]. intros H. rewrite (aget_aset_same name_eqb name_eqb_spec), fput_child, (aset_aset name_eqb name_eqb_spec) by exact H. reflexivity.
Qed.
Lemma pget_child p k c x ps : pget_ p ps <> None -> pget_ (fst p, snd p ++ [k]) (pput p (set_child k c x) ps) = Some c.
Proof.
  intros H. unfold pget_, pput in *. cbn [fst snd]. destruct (aget name_eqb (fst p) ps) as [f|] eqn:E; [|congruence]. rewrite (aget_aset_same name_eqb name_eqb_spec), fget_app.
  destruct (fget (snd p) f) as [y|] eqn:G; [|congruence]. rewrite (fget_fput _ f _ y G), fchild_same. reflexivity.
Qed.
Lemma back_app st p : back (st ++ [p]) = Some p.
Proof. unfold back. rewrite rev_app_distr. reflexivity. Qed.

(** *** The traversal as a recursion on the node *)
Definition child_or_new (key : lkey) (f : lfs) : lfs := set_function (snd key) (match fchild key f with Some c => c | None => lfs0 end).
Fixpoint wr (table : list name) (level : nat) (s : symbol) (f : lfs) {struct s} : outcome lfs :=
  match s with
  | Sym _ _ _ _ cs =>
      let! f := visit_node (S level) s f in
      (fix go (cs : list (callsite * symbol)) (f : lfs) {struct cs} : outcome lfs :=
         match cs with
         | [] => Ok f
         | (k, c) :: cs =>
             let! callee := checked_name (snd k) in
             let! callee := GetNameRef table callee in
             let key := (line_disc (fst k), callee) in
             let! c' := wr table (S level) c (child_or_new key f) in
             go cs (set_child key c' f)
         end) cs f
  end.
Fixpoint wr_calls (table : list name) (level : nat) (cs : list (callsite * symbol)) (f : lfs) : outcome lfs :=
  match cs with
  | [] => Ok f
  | (k, c) :: cs =>
      let! callee := checked_name (snd k) in
      let! callee := GetNameRef table callee in
      let key := (line_disc (fst k), callee) in
      let! c' := wr table level c (child_or_new key f) in
      wr_calls table level cs (set_child key c' f)
  end.
Lemma wr_eq table level s f : wr table level s f = let! f := visit_node (S level) s f in wr_calls table (S level) (s_calls s) f.
Proof.
  destruct s as [h t ts pos cs]. cbn [wr s_calls]. destruct (visit_node (S level) (Sym h t ts pos cs) f) as [f1| |]; cbn [obind]; [|reflexivity|reflexivity]. clear f.
  revert f1. induction cs as [|[k c] cs IH]; intros f1; [reflexivity|]. cbn [wr_calls]. destruct (checked_name (snd k)) as [n| |]; cbn [obind]; [|reflexivity|reflexivity].
  destruct (GetNameRef table n) as [n'| |]; cbn [obind]; [|reflexivity|reflexivity]. destruct (wr table (S level) c _) as [c'| |]; cbn [obind]; [|reflexivity|reflexivity]. apply IH.
Qed.
Fixpoint wt_calls (table : list name) (level : nat) (cs : list (callsite * symbol)) (st : wstate) : outcome wstate :=
  match cs with
  | [] => Ok st
  | (k, c) :: cs => let! st := visit_callsite table level k st in let! st := wtraverse table level c st in wt_calls table level cs st
  end.
Lemma wt_eq table level s st : wtraverse table level s st = let! st := visit (S level) s st in wt_calls table (S level) (s_calls s) st.
Proof.
  destruct s as [h t ts pos cs]. cbn [wtraverse s_calls]. destruct (visit (S level) (Sym h t ts pos cs) st) as [f1| |]; cbn [obind]; [|reflexivity|reflexivity]. clear st.
  revert f1. induction cs as [|[k c] cs IH]; intros f1; [reflexivity|]. cbn [wt_calls]. destruct (visit_callsite table (S level) k f1) as [n| |]; cbn [obind]; [|reflexivity|reflexivity].
  destruct (wtraverse table (S level) c n) as [c'| |]; cbn [obind]; [|reflexivity|reflexivity]. apply IH.
Qed.

Definition refines (r : outcome lfs) (level : nat) (stack : list ptr) (p : ptr) (ps : list (name * lfs)) (w : outcome wstate) : Prop :=
  match r with
  | Ok f' => exists stack', w = Ok (pput p f' ps, stack') /\ firstn level stack' = stack
  | Abort => w = Abort
  | UB => False
  end.
Lemma sat_nub a b : sat_add a b <> UB. Proof. unfold sat_add. destruct (_ <? _); discriminate. Qed.
Lemma add_total_nub x f : add_total x f <> UB.
Proof. destruct f as [n h t b c]. cbn [add_total]. pose proof (sat_nub t x). destruct (sat_add t x); cbn [obind]; congruence. Qed.
Lemma add_body_nub l x f : add_body l x f <> UB.
Proof. destruct f as [n h t b c]. cbn [add_body]. pose proof (sat_nub (fst (body_get l b)) x). destruct (sat_add _ x); cbn [obind]; congruence. Qed.
Lemma add_target_nub l g x f : add_target l g x f <> UB.
Proof. destruct f as [n h t b c]. cbn [add_target]. pose proof (sat_nub (tget g (snd (body_get l b))) x). destruct (sat_add _ x); cbn [obind]; congruence. Qed.
Lemma targets_nub l ts : forall f, visit_targets l ts f <> UB.
Proof. induction ts as [|[t x] ts IH]; intros f; cbn [visit_targets]; [discriminate|]. pose proof (add_target_nub l t x f). destruct (add_target l t x f); cbn [obind]; [apply IH|congruence|congruence]. Qed.
Lemma body_nub pos : forall f, visit_body pos f <> UB.
Proof.
  induction pos as [|[o i] pos IH]; intros f; cbn [visit_body]; [discriminate|]. pose proof (add_body_nub (line_disc o) (p_count i) f). destruct (add_body _ _ f) as [f1| |]; cbn [obind]; [|congruence|congruence].
  pose proof (targets_nub (line_disc o) (p_targets i) f1). destruct (visit_targets _ _ f1); cbn [obind]; [apply IH|congruence|congruence].
Qed.
Lemma node_nub level s f : visit_node level s f <> UB.
Proof.
  unfold visit_node. destruct (1 <? level)%nat; cbn [obind]; [|apply body_nub]. pose proof (add_total_nub (s_total s) f). destruct (add_total _ f); cbn [obind]; [apply body_nub|congruence|congruence].
Qed.

Lemma traverse_refines table s : forall level ps stack p f, length stack = S level -> back stack = Some p -> pget_ p ps = Some f ->
  refines (wr table level s f) (S level) stack p ps (wtraverse table level s (ps, stack)).
Proof.
  induction s as [h t ts pos cs IH] using symbol_ind'. intros level ps stack p f LS BK PG. set (s := Sym h t ts pos cs). rewrite wr_eq, wt_eq. unfold visit. cbn [fst snd]. rewrite BK, PG.
  destruct (visit_node (S level) s f) as [f1| |] eqn:V; cbn [obind]; [|reflexivity|exfalso; exact (node_nub _ _ _ V)]. cbn [s_calls s].
  assert (G : forall cs, (forall k c, In (k, c) cs -> forall level ps stack p f, length stack = S level -> back stack = Some p -> pget_ p ps = Some f -> refines (wr table level c f) (S level) stack p ps (wtraverse table level c (ps, stack))) ->
    forall ps' stack' f', firstn (S level) stack' = stack -> pget_ p ps' = Some f' ->
    refines (wr_calls table (S level) cs f') (S level) stack p ps' (wt_calls table (S level) cs (ps', stack'))).
  { clear IH V f1 f PG ps. clear cs s. induction cs as [|[k c] cs IHc]; intros IH ps' stack' f' FS PG.
    - cbn [wr_calls wt_calls refines]. exists stack'. split; [|exact FS]. f_equal. f_equal.
      unfold pput, pget_ in *. destruct (aget name_eqb (fst p) ps') as [r|] eqn:E; [|discriminate].
      assert (FP : forall q r, fget q r = Some f' -> fput q f' r = r).
      { induction q as [|k q IHq]; intros r0 H; cbn [fput fget] in *; [congruence|]. destruct (fchild k r0) as [y|] eqn:Y; [|discriminate]. rewrite (IHq y H). destruct r0 as [n h0 t0 b cs0]. unfold fchild in Y. cbn [set_child lf_calls] in *. f_equal.
        clear - Y. induction cs0 as [|[k1 v1] l IHl]; cbn [aget aset] in *; [discriminate|]. destruct (lkey_eqb_spec k k1) as [->|N]; [congruence|]. rewrite (IHl Y). reflexivity. }
      rewrite (FP _ r PG). clear - E. induction ps' as [|[k1 v1] l IHl]; cbn [aget aset] in *; [discriminate|]. destruct (name_eqb_spec (fst p) k1) as [Q|N]; [congruence|]. f_equal. apply IHl. exact E.
    - cbn [wr_calls wt_calls]. unfold visit_callsite. cbn [fst snd]. rewrite FS, BK. destruct (checked_name (snd k)) as [n| |] eqn:CN; cbn [obind]; [|reflexivity|destruct k as [? [|? ?]]; discriminate].
      destruct (GetNameRef table n) as [n'| |] eqn:GN; cbn [obind]; [|reflexivity|unfold GetNameRef in GN; destruct n; cbn [checked_name obind] in GN; [discriminate|]; destruct (existsb _ _); discriminate]. rewrite PG.
      set (key := (line_disc (fst k), n')). fold (child_or_new key f'). cbn [obind].
      assert (CH : set_function n' match fchild key f' with Some c0 => c0 | None => lfs0 end = child_or_new key f') by reflexivity. rewrite CH.
      pose proof (IH k c (or_introl eq_refl) (S level) (pput p (set_child key (child_or_new key f') f') ps') (stack ++ [(fst p, snd p ++ [key])]) (fst p, snd p ++ [key]) (child_or_new key f')) as R.
      assert (PN : pget_ p ps' <> None) by congruence.
      specialize (R ltac:(rewrite app_length, LS; cbn [length]; lia) (back_app _ _) (pget_child p key _ _ _ PN)).
      destruct (wr table (S level) c (child_or_new key f')) as [c'| |]; cbn [refines obind] in *.
      + destruct R as (stack2 & E2 & F2). rewrite E2. cbn [obind]. rewrite pput_child by exact PN.
        assert (FS2 : firstn (S level) stack2 = stack).
        { assert (X : firstn (S level) (firstn (S (S level)) stack2) = firstn (S level) stack2) by (rewrite firstn_firstn; f_equal; lia). rewrite F2 in X. rewrite <- X. rewrite <- LS, firstn_app, Nat.sub_diag. cbn [firstn]. rewrite app_nil_r. apply firstn_all. }
        assert (IH' : forall k c, In (k, c) cs -> forall level ps stack p f, length stack = S level -> back stack = Some p -> pget_ p ps = Some f -> refines (wr table level c f) (S level) stack p ps (wtraverse table level c (ps, stack))) by (intros k0 c0 H0; apply (IH k0 c0); right; exact H0).
        pose proof (IHc IH' (pput p (set_child key c' f') ps') stack2 (set_child key c' f') FS2 (pget_pput _ _ _ _ PG)) as R2.
        destruct (wr_calls table (S level) cs (set_child key c' f')) as [f2| |]; cbn [refines] in *; [|exact R2|exact R2]. destruct R2 as (stack3 & E3 & F3). exists stack3. split; [rewrite E3, pput_pput; reflexivity|exact F3].
      + rewrite R. reflexivity.
      + exact R. }
  pose proof (G cs IH (pput p f1 ps) stack f1 ltac:(rewrite <- LS; apply firstn_all) (pget_pput _ _ _ _ PG)) as R.
  destruct (wr_calls table (S level) cs f1) as [f2| |]; cbn [refines] in *; [|exact R|exact R]. destruct R as (stack3 & E3 & F3). exists stack3. split; [rewrite E3, pput_pput; reflexivity|exact F3].
Qed.
