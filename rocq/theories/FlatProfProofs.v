(** BuildFlatProfile adds every node of the source to the function it is a copy of. *)
From Verif Require Import Base AssocFold SymbolModel SymbolSpec SymbolProofs AttribProofs AfdoModel AfdoReadProofs
  FlattenModel FlattenSpec FlattenPureProofs FlattenMapProofs FlattenNestProofs FlattenAllProofs HybridModel HybridSpec HybridViewProofs HybridBodyProofs HybridPopProofs HybridProps.
From Coq Require Import Permutation.

(** *** EstimateHeadCount twice is once *)
Lemma est_calls_keys e cs : akeys (est_calls e cs) = akeys cs.
Proof. unfold est_calls, akeys. rewrite map_map. reflexivity. Qed.
Lemma estimate_idem s : EstimateHeadCount (EstimateHeadCount s) = EstimateHeadCount s.
Proof.
  induction s as [h t ts pos cs IH] using symbol_ind'. cbn [EstimateHeadCount]. destruct (negb (h =? 0)) eqn:N; [cbn [EstimateHeadCount]; rewrite N; reflexivity|].
  apply Bool.negb_false_iff, Z.eqb_eq in N. subst h. fold est_calls.
  set (x := match min_pos (akeys pos) with Some l => (p_count (pget l pos), l) | None => (0, 2 ^ 64 - 1) end).
  destruct x as [h1 off] eqn:X. destruct (min_callsite (akeys cs)) as [e|] eqn:ME.
  2:{ cbn [EstimateHeadCount]. destruct (negb (h1 =? 0)) eqn:N; [reflexivity|]. apply Bool.negb_false_iff, Z.eqb_eq in N. subst h1. fold x. rewrite X, ME. reflexivity. }
  destruct (off <=? fst e) eqn:L.
  { cbn [EstimateHeadCount]. destruct (negb (h1 =? 0)) eqn:N; [reflexivity|]. apply Bool.negb_false_iff, Z.eqb_eq in N. subst h1. fold x. rewrite X, ME, L. reflexivity. }
  change (map (fun kc => (fst kc, if callsite_eqb (fst kc) e then EstimateHeadCount (snd kc) else snd kc)) cs) with (est_calls e cs).
  assert (I2 : est_calls e (est_calls e cs) = est_calls e cs).
  { unfold est_calls. rewrite map_map. apply map_ext_in. intros [k c] Hk. cbn [fst snd]. destruct (callsite_eqb k e); [|reflexivity]. rewrite (IH k c Hk). reflexivity. }
  set (h2 := s_head (cget e (est_calls e cs))). cbn [EstimateHeadCount]. destruct (negb (h2 =? 0)) eqn:N; [reflexivity|]. apply Bool.negb_false_iff, Z.eqb_eq in N. rewrite N. fold x. rewrite X.
  rewrite est_calls_keys, ME, L.
  change (map (fun kc => (fst kc, if callsite_eqb (fst kc) e then EstimateHeadCount (snd kc) else snd kc)) (est_calls e cs)) with (est_calls e (est_calls e cs)). rewrite I2. fold h2. rewrite N. reflexivity.
Qed.
Definition est (s : symbol) : Z := s_head (EstimateHeadCount s).
Definition est_all (cs : list (callsite * symbol)) := map (fun kc => (fst kc, EstimateHeadCount (snd kc))) cs.
(** The body of a node once its callees are calls. *)
Definition fbody (s : symbol) : list (Z * pinfo) := flatten_sites (est_all (s_calls s)) (s_pos s).
Definition csum_counts (pos : list (Z * pinfo)) : Z := fold_left (fun a e => add64 a (p_count (snd e))) pos 0.
Definition fnode (h : Z) (s : symbol) : owndata := (h, csum_counts (fbody s), fbody s).
Fixpoint fl (n : name) (h : Z) (s : symbol) : list (name * owndata) :=
  match s with
  | Sym _ _ _ _ cs => (n, fnode h s) :: flat_map (fun kc => fl (snd (fst kc)) (est (snd kc)) (snd kc)) cs
  end.
Definition fl_calls (cs : list (callsite * symbol)) := flat_map (fun kc => fl (snd (fst kc)) (est (snd kc)) (snd kc)) cs.
Lemma fl_eq n h s : fl n h s = (n, fnode h s) :: fl_calls (s_calls s). Proof. destruct s; reflexivity. Qed.
Lemma est_all_est_calls e cs : est_all (est_calls e cs) = est_all cs.
Proof. unfold est_all, est_calls. rewrite map_map. apply map_ext. intros [k c]. cbn [fst snd]. destruct (callsite_eqb k e); [rewrite estimate_idem|]; reflexivity. Qed.
Lemma fbody_est s : fbody (EstimateHeadCount s) = fbody s.
Proof. unfold fbody. destruct (estimate_shape s) as [-> [->|[e ->]]]; [reflexivity|]. rewrite est_all_est_calls. reflexivity. Qed.
Lemma est_est s : est (EstimateHeadCount s) = est s. Proof. unfold est. rewrite estimate_idem. reflexivity. Qed.
Lemma fl_est s : forall n h, fl n h (EstimateHeadCount s) = fl n h s.
Proof.
  induction s as [h0 t ts pos cs IH] using symbol_ind'. intros n h. rewrite !fl_eq. unfold fnode. rewrite fbody_est. f_equal.
  destruct (estimate_shape (Sym h0 t ts pos cs)) as [_ [->|[e ->]]]; [reflexivity|]. cbn [s_calls]. unfold fl_calls, est_calls.
  clear - IH. induction cs as [|[k c] cs IHc]; [reflexivity|]. cbn [map flat_map fst snd]. rewrite IHc by (intros k0 c0 H; apply (IH k0 c0); right; exact H). f_equal.
  destruct (callsite_eqb k e); [|reflexivity]. rewrite est_est. apply (IH k c). left. reflexivity.
Qed.
Lemma tree_size_est s : tree_size (EstimateHeadCount s) = tree_size s.
Proof.
  induction s as [h0 t ts pos cs IH] using symbol_ind'.
  assert (TE : forall s, tree_size s = S (fold_right (fun kc a => (tree_size (snd kc) + a)%nat) O (s_calls s))) by (intros []; reflexivity).
  rewrite !TE. destruct (estimate_shape (Sym h0 t ts pos cs)) as [_ [->|[e ->]]]; [reflexivity|]. cbn [s_calls]. f_equal. unfold est_calls.
  clear - IH. induction cs as [|[k c] cs IHc]; [reflexivity|]. cbn [map fold_right fst snd]. rewrite IHc by (intros k0 c0 H; apply (IH k0 c0); right; exact H). f_equal.
  destruct (callsite_eqb k e); [|reflexivity]. apply (IH k c). left. reflexivity.
Qed.

Lemma est_all_heads cs : (forall k c, In (k, c) cs -> sym_ok c) -> forall kc, In kc (est_all cs) -> is_u64 (s_head (snd kc)).
Proof. intros H kc K. apply in_map_iff in K as ([k c] & <- & K). cbn [snd]. apply sym_ok_head, estimate_ok. exact (H k c K). Qed.
Lemma fbody_ok s : sym_ok s -> pos_ok (fbody s).
Proof. intros O. apply flatten_sites_ok; [exact (sym_ok_pos s O)|]. apply est_all_heads. inversion O; subst. assumption. Qed.
Lemma csum_counts_ok pos : is_u64 (csum_counts pos).
Proof.
  unfold csum_counts. assert (G : forall l a, is_u64 a -> is_u64 (fold_left (fun a (e : Z * pinfo) => add64 a (p_count (snd e))) l a)).
  { induction l as [|x l IH]; intros a H; cbn [fold_left]; [exact H|]. apply IH. apply add64_range. }
  apply G. apply u64_0.
Qed.
Lemma fnode_ok h s : sym_ok s -> is_u64 h -> own_ok (fnode h s).
Proof. intros O H. split; [exact H|]. split; [apply csum_counts_ok|exact (fbody_ok s O)]. Qed.

(** *** The effect of FlatMerge on a map *)
Lemma flatmerge_own d s : own (FlatMerge d s) = own_add (own d) (s_head s, csum_counts (s_pos s), s_pos s).
Proof. destruct d. reflexivity. Qed.
Lemma flatmerge_calls d s : s_calls (FlatMerge d s) = s_calls d. Proof. destruct d. reflexivity. Qed.
Lemma pos_add_ok' d s : pos_ok d -> pos_ok s -> pos_ok (pos_add d s).
Proof.
  intros D P. assert (A : sym_ok (merge (Sym 0 0 0 d []) (Sym 0 0 0 s []))).
  { assert (Z0 : is_u64 0) by apply u64_0. apply merge_ok; constructor; auto; try (constructor; fail); try (intros ? ? []). }
  apply sym_ok_pos in A. exact A.
Qed.
Lemma flatmerge_ok d h t ts pos cs : sym_ok d -> is_u64 h -> pos_ok pos -> sym_ok (FlatMerge d (Sym h t ts pos cs)).
Proof. intros D H P. inversion D; subst. cbn [FlatMerge s_head s_pos]. constructor; auto; try apply add64_range. apply pos_add_ok'; assumption. Qed.

Section Flat.
  Context {M : Type} (eqv : M -> M -> Prop) (op : M -> M -> M) (e : M) (obs : owndata -> M).
  Hypothesis eqv_refl : forall a, eqv a a.
  Hypothesis eqv_sym : forall a b, eqv a b -> eqv b a.
  Hypothesis eqv_trans : forall a b c, eqv a b -> eqv b c -> eqv a c.
  Hypothesis op_cong : forall a b c d, eqv a b -> eqv c d -> eqv (op a c) (op b d).
  Hypothesis op_comm : forall a b, eqv (op a b) (op b a).
  Hypothesis op_assoc : forall a b c, eqv (op a (op b c)) (op (op a b) c).
  Hypothesis op_id : forall a, eqv (op a e) a.
  Hypothesis obs_0 : eqv (obs own0) e.
  Hypothesis obs_add : forall a b, own_ok a -> own_ok b -> eqv (obs (own_add a b)) (op (obs a) (obs b)).

  Definition fsum (G : name) (L : list (name * owndata)) : M :=
    fold_right (fun x a => if name_eqb (fst x) G then op (obs (snd x)) a else a) e L.
  Lemma fsum_cons G x L : fsum G (x :: L) = if name_eqb (fst x) G then op (obs (snd x)) (fsum G L) else fsum G L. Proof. reflexivity. Qed.
  Lemma fsum_perm G L L' : Permutation L L' -> eqv (fsum G L) (fsum G L').
  Proof.
    induction 1 as [|x L L' P IH|x y L|L1 L2 L3 P1 IH1 P2 IH2]; [apply eqv_refl| | |eapply eqv_trans; eassumption].
    - rewrite !fsum_cons. destruct (name_eqb (fst x) G); [|exact IH]. apply op_cong; [apply eqv_refl|exact IH].
    - rewrite !fsum_cons. destruct (name_eqb (fst x) G), (name_eqb (fst y) G); try apply eqv_refl.
      eapply eqv_trans; [apply op_assoc|]. eapply eqv_trans; [apply op_cong; [apply op_comm|apply eqv_refl]|]. apply eqv_sym, op_assoc.
  Qed.

  Definition vat (m : smap) (G : name) (q : path) : M := match view m G q with Some o => obs o | None => e end.
  (** [m'] is [m] with the nodes [L] merged into their functions *)
  Definition fadds (L : list (name * owndata)) (m m' : smap) : Prop :=
    grows m m' /\ (forall G, view m' G [] <> None <-> view m G [] <> None \/ In G (map fst L)) /\
    (forall G q, q <> [] -> view m' G q = view m G q) /\
    (forall G, ~ In G (map fst L) -> sm_find m' G = sm_find m G) /\
    (forall G, eqv (vat m' G []) (op (vat m G []) (fsum G L))).
  Lemma fadds_nil m : smap_ok m -> fadds [] m m.
  Proof.
    intros O. split; [apply grows_refl; exact O|]. split; [intros G; cbn [map In]; tauto|]. split; [reflexivity|]. split; [reflexivity|].
    intros G. apply eqv_sym. apply op_id.
  Qed.
  Lemma fadds_cons x L m m' m'' : fadds [x] m m' -> fadds L m' m'' -> fadds (x :: L) m m''.
  Proof.
    intros (A1 & A2 & A3 & A4 & A5) (B1 & B2 & B3 & B4 & B5). split; [exact (grows_trans _ _ _ A1 B1)|]. split; [|split; [|split]].
    - intros G. rewrite B2, A2. cbn [map In]. clear. tauto.
    - intros G q Q. rewrite B3, A3 by exact Q. reflexivity.
    - intros G N. rewrite B4, A4; [reflexivity| |]; intros H; apply N; cbn [map In] in *; clear - H; tauto.
    - intros G. eapply eqv_trans; [apply B5|]. eapply eqv_trans; [apply op_cong; [apply A5|apply eqv_refl]|]. rewrite !fsum_cons. change (fsum G []) with e.
      destruct (name_eqb (fst x) G).
      + eapply eqv_trans; [apply eqv_sym, op_assoc|]. apply op_cong; [apply eqv_refl|]. apply op_cong; [apply op_id|apply eqv_refl].
      + apply op_cong; [apply op_id|apply eqv_refl].
  Qed.
  Lemma fadds_perm L L' m m' : Permutation L L' -> fadds L m m' -> fadds L' m m'.
  Proof.
    intros P (A1 & A2 & A3 & A4 & A5). pose proof (Permutation_map fst P) as PF. split; [exact A1|]. split; [|split; [exact A3|split]].
    - intros G. rewrite A2. split; (intros [H|H]; [left; exact H|right]); [exact (Permutation_in _ PF H)|exact (Permutation_in _ (Permutation_sym PF) H)].
    - intros G N. apply A4. intros H. apply N. exact (Permutation_in _ PF H).
    - intros G. eapply eqv_trans; [apply A5|]. apply op_cong; [apply eqv_refl|apply fsum_perm; exact P].
  Qed.

  (** AddSymbol and an update of the new or old function *)
  Lemma step_ok n f o m : smap_ok m -> (forall d, s_calls (f d) = s_calls d) -> (forall d, sym_ok d -> sym_ok (f d)) -> own_ok o ->
    (forall d, own (f d) = own_add (own d) o) ->
    exists m', sm_update n f (AddSymbol [] n m) = Ok m' /\ fadds [(n, o)] m m'.
  Proof.
    intros O FC FO OO FE. destruct (add_self n m O) as (j & Ej & s & Es). pose proof (add_ok n m O) as O1.
    assert (EU : sm_update n f (AddSymbol [] n m) = Ok (node_upd j [] f (AddSymbol [] n m))).
    { unfold sm_update, node_upd. rewrite Ej. unfold node_get in Es. destruct (nth_error (sm_heap (AddSymbol [] n m)) j); [reflexivity|discriminate]. }
    assert (VA : view (AddSymbol [] n m) n [] = Some (own s)) by (unfold view; rewrite (at_name _ n j Ej), Es; reflexivity).
    pose proof (view_add n m n [] O) as V0. rewrite VA in V0. destruct (here_spec n [] n []) as [_|X]; [|tauto].
    assert (OS : own s = match view m n [] with Some o => o | None => own0 end) by congruence.
    assert (SO : sym_ok s) by exact (ok_get _ j [] s O1 Es).
    exists (node_upd j [] f (AddSymbol [] n m)). split; [exact EU|].
    assert (VU : forall G q, view (node_upd j [] f (AddSymbol [] n m)) G q = if here n [] G q then Some (own_add (own s) o) else view m G q).
    { intros G q. rewrite (view_upd _ n j [] f s G q O1 Ej Es (FC s)), FE. rewrite (view_add n m G q O). destruct (here n [] G q); reflexivity. }
    split; [|split; [|split; [|split]]].
    - eapply grows_trans; [apply grows_add; exact O|]. apply (grows_upd _ n j [] f s O1 Ej Es (FC s)). apply FO. exact SO.
    - intros G. rewrite VU. cbn [map fst In]. destruct (here_spec n [] G []) as [[-> _]|N]; [split; [right; left; reflexivity|discriminate]|].
      split; [left; assumption|]. intros [H|[H|[]]]; [exact H|]. exfalso. apply N. split; [congruence|reflexivity].
    - intros G q Q. rewrite VU. destruct (here_spec n [] G q) as [[_ X]|N]; [congruence|reflexivity].
    - intros G N. cbn [map fst In] in N. unfold sm_find. rewrite node_upd_names_aget, add_aget. destruct (aget name_eqb G (sm_names m)) as [i|] eqn:E.
      + assert (NJ : i <> j) by (intros ->; apply N; left; apply (name_inj (AddSymbol [] n m) n G j O1 Ej); rewrite add_aget, E; reflexivity).
        destruct (find_some m G i O E) as [r Er]. rewrite Er. pose proof (add_heap n m i r Er) as Er'.
        unfold node_upd. destruct (nth_error (sm_heap (AddSymbol [] n m)) j) eqn:H; [|exact Er']. cbn [sm_heap]. rewrite nth_set_nth by (apply nth_error_Some; congruence).
        destruct (Nat.eqb_spec i j); [congruence|exact Er'].
      + destruct (name_eqb_spec G n) as [->|]; [exfalso; apply N; left; reflexivity|reflexivity].
    - intros G. unfold vat. rewrite VU, fsum_cons. cbn [fst snd]. change (fsum G []) with e. destruct (here_spec n [] G []) as [[-> _]|N].
      + destruct (name_eqb_spec n n) as [_|]; [|congruence].
        eapply eqv_trans; [apply obs_add; [exact (own_sym_ok s SO)|exact OO]|]. apply op_cong; [|apply eqv_sym, op_id]. rewrite OS. destruct (view m n []); [apply eqv_refl|exact obs_0].
      + destruct (name_eqb_spec n G) as [X|_]; [exfalso; apply N; auto|]. apply eqv_sym, op_id.
  Qed.

  Definition work_nodes (sel : bool) (work : list (name * symbol)) : list (name * owndata) :=
    flat_map (fun w => if sel then [(fst w, fnode (s_head (snd w)) (snd w))] else fl (fst w) (s_head (snd w)) (snd w)) work.
  Definition work_size (work : list (name * symbol)) : nat := fold_right (fun w a => (tree_size (snd w) + a)%nat) O work.
  Lemma work_size_app a b : work_size (a ++ b) = (work_size a + work_size b)%nat.
  Proof. induction a as [|x a IH]; [reflexivity|]. cbn [app work_size fold_right]. fold (work_size (a ++ b)). fold (work_size a). lia. Qed.
  Lemma work_size_rev a : work_size (rev a) = work_size a.
  Proof. induction a as [|x a IH]; [reflexivity|]. cbn [rev]. rewrite work_size_app, IH. cbn [work_size fold_right]. fold (work_size a). lia. Qed.

  Lemma work_ok sel : forall fuel work m, (work_size work <= fuel)%nat -> smap_ok m -> Forall (fun w => sym_ok (snd w)) work ->
    exists m', flat_work sel fuel work m = Ok m' /\ fadds (work_nodes sel work) m m'.
  Proof.
    induction fuel as [|fuel IH]; intros work m SZ O W.
    - destruct work as [|[n s] work]; [exists m; split; [reflexivity|apply fadds_nil; exact O]|]. exfalso. cbn [work_size fold_right snd] in SZ. destruct s. cbn [tree_size] in SZ. lia.
    - destruct work as [|[n [h t ts pos cs]] work]; [exists m; split; [reflexivity|apply fadds_nil; exact O]|]. cbn [flat_work].
      inversion W as [|? ? O1 OW]; subst. cbn [snd] in O1. set (s := Sym h t ts pos cs) in *.
      change (flatten_sites (map (fun kc => (fst kc, EstimateHeadCount (snd kc))) cs) pos) with (fbody s).
      change (map (fun kc => (fst kc, EstimateHeadCount (snd kc))) cs) with (est_all cs).
      destruct (step_ok n (fun d => FlatMerge d (Sym h t ts (fbody s) (est_all cs))) (fnode h s) m O) as (m1 & E1 & A1).
      + intros d. apply flatmerge_calls.
      + intros d D. apply flatmerge_ok; [exact D|exact (sym_ok_head s O1)|exact (fbody_ok s O1)].
      + apply fnode_ok; [exact O1|exact (sym_ok_head s O1)].
      + intros d. apply flatmerge_own.
      + rewrite E1. cbn [obind].
        assert (OC : forall k c, In (k, c) cs -> sym_ok c) by (inversion O1; subst; assumption).
        set (work' := if sel then work else rev (map (fun kc => (snd (fst kc), snd kc)) (est_all cs)) ++ work).
        assert (SZ' : (work_size work' <= fuel)%nat).
        { cbn [work_size fold_right snd] in SZ. fold (work_size work) in SZ. unfold s in SZ. cbn [tree_size] in SZ. unfold work'. destruct sel; [lia|]. rewrite work_size_app, work_size_rev.
          assert (EQ : work_size (map (fun kc => (snd (fst kc), snd kc)) (est_all cs)) = fold_right (fun kc a => (tree_size (snd kc) + a)%nat) 0%nat cs).
          { clear. unfold est_all, work_size. induction cs as [|[k c] cs IH]; [reflexivity|]. cbn [map fold_right fst snd]. rewrite IH, tree_size_est. reflexivity. } lia. }
        assert (W' : Forall (fun w => sym_ok (snd w)) work').
        { unfold work'. destruct sel; [exact OW|]. apply Forall_app. split; [|exact OW]. apply Forall_rev, Forall_forall. intros w Hw. apply in_map_iff in Hw as (kc & <- & Hw). apply in_map_iff in Hw as ([k c] & <- & Hw). cbn [snd]. apply estimate_ok. exact (OC k c Hw). }
        destruct (IH work' m1 SZ' (proj1 (proj1 A1)) W') as (m2 & E2 & A2). exists m2. split; [exact E2|].
        eapply fadds_perm; [|exact (fadds_cons _ _ _ _ _ A1 A2)]. unfold work', work_nodes. cbn [flat_map fst snd]. destruct sel; [apply Permutation_refl|].
        unfold s. rewrite fl_eq. cbn [app s_calls s_head]. apply perm_skip. rewrite flat_map_app. apply Permutation_app_tail.
        assert (EQ : fl_calls cs = flat_map (fun w => fl (fst w) (s_head (snd w)) (snd w)) (map (fun kc => (snd (fst kc), snd kc)) (est_all cs))).
        { clear. unfold est_all, fl_calls. induction cs as [|[k c] cs IH]; [reflexivity|]. cbn [map flat_map fst snd]. rewrite IH, fl_est. reflexivity. }
        rewrite EQ. rewrite !flat_map_concat_map. rewrite map_rev. clear. induction (map _ _) as [|x l IH] using rev_ind; [constructor|]. rewrite rev_app_distr, !concat_app. cbn [rev app concat].
        rewrite !app_nil_r. eapply Permutation_trans; [apply Permutation_app_comm|]. apply Permutation_app; [exact IH|apply Permutation_refl].
  Qed.
End Flat.
