(** C56: flat profiles. *)
From Verif Require Import Base AssocFold SymbolModel SymbolSpec SymbolProofs AttribProofs AfdoModel AfdoReadProofs
  FlattenModel FlattenSpec FlattenPureProofs FlattenMapProofs FlattenNestProofs FlattenAllProofs FlattenHeadProps
  HybridModel HybridSpec HybridViewProofs HybridBodyProofs HybridPopProofs HybridProps FlatProfSpec FlatProfProofs.
From Coq Require Import Permutation.

(** *** The sum of the line counts *)
Definition possum (pos : list (Z * pinfo)) : Z := sumz (fun e => p_count (snd e)) pos.
Lemma csum_counts_eqm pos : eqm (csum_counts pos) (possum pos).
Proof.
  unfold csum_counts. assert (G : forall l a, eqm (fold_left (fun a (e : Z * pinfo) => add64 a (p_count (snd e))) l a) (a + possum l)).
  { induction l as [|x l IH]; intros a; cbn [fold_left]; unfold possum; cbn [sumz]; [rewrite Z.add_0_r; apply eqm_refl|]. eapply eqm_trans; [apply IH|]. fold (possum l).
    eapply eqm_trans; [apply eqm_add; [apply eqm_u64|apply eqm_refl]|]. exists 0. lia. }
  apply (G pos 0).
Qed.
Lemma possum_aset l i d : NoDup (akeys d) -> possum (aset Z.eqb l i d) = possum d - p_count (pget l d) + p_count i.
Proof.
  unfold possum, pget. induction d as [|[k j] d IH]; intros N; cbn [aset sumz aget snd]; [cbn; lia|]. inversion N; subst. destruct (Z.eqb_spec l k) as [->|NE]; cbn [sumz snd]; [lia|]. rewrite IH by assumption. lia.
Qed.
Lemma possum_add s : forall d, NoDup (akeys d) -> eqm (possum (pos_add d s)) (possum d + possum s).
Proof.
  unfold pos_add. induction s as [|[l i] s IH]; intros d N; cbn [fold_left]; [unfold possum at 3; cbn [sumz]; rewrite Z.add_0_r; apply eqm_refl|].
  cbn [fst snd]. eapply eqm_trans; [apply IH; apply NoDup_akeys_aset; [apply Z.eqb_spec|exact N]|]. rewrite possum_aset by exact N. cbn [pinfo_add p_count].
  unfold possum at 4. cbn [sumz snd]. fold (possum s). assert (X : eqm (add64 (p_count (pget l d)) (p_count i)) (p_count (pget l d) + p_count i)) by apply eqm_u64. destruct X as [z ->]. exists z. lia.
Qed.
Definition obal (o : owndata) : Z := ototal o - possum (snd o).
Lemma obal_add a b : own_ok a -> own_ok b -> eqm (obal (own_add a b)) (obal a + obal b).
Proof.
  intros A B. pose proof (ototal_add a b A B) as T. destruct a as [[h t] p], b as [[h' t'] p']. destruct A as (_ & _ & [N _]). pose proof (possum_add p' p N) as Q. unfold obal. cbn [own_add snd ototal fst] in *.
  destruct T as [x ->]. destruct Q as [y ->]. exists (x - y). lia.
Qed.
Lemma possum_spec s : NoDup (akeys (s_pos s)) -> possum (s_pos s) = sumz (fun l => count_at s [] l) (map fst (s_pos s)).
Proof.
  intros N. unfold possum, count_at, pos_at. cbn [node_at].
  assert (G : forall d, (forall x, In x d -> In x (s_pos s)) ->
    sumz (fun e : Z * pinfo => p_count (snd e)) d = sumz (fun l => match aget Z.eqb l (s_pos s) with Some i => p_count i | None => 0 end) (map fst d)).
  { induction d as [|[l i] d IH]; intros IN; [reflexivity|]. cbn [map sumz fst snd]. rewrite IH; [|intros x Hx; apply IN; right; exact Hx]. f_equal.
    assert (E : aget Z.eqb l (s_pos s) = Some i) by (apply (aget_NoDup_In Z.eqb Z.eqb_spec); [exact N|apply IN; left; reflexivity]). rewrite E. reflexivity. }
  apply G. auto.
Qed.

(** *** Copies *)
Notation entry := (name * bool * symbol)%type.
Definition node_of_entry (e : entry) : name * owndata := (fst (fst e), fnode (if snd (fst e) then s_head (snd e) else est (snd e)) (snd e)).
Lemma fl_copies s : forall n b, fl n (if b : bool then s_head s else est s) s = map node_of_entry (copies n b s).
Proof.
  induction s as [h t ts pos cs IH] using symbol_ind'. intros n b. rewrite fl_eq. cbn [copies map]. f_equal. cbn [s_calls]. unfold fl_calls.
  induction cs as [|[k c] cs IHc]; [reflexivity|]. cbn [flat_map fst snd]. rewrite map_app, IHc by (intros k0 c0 H; apply (IH k0 c0); right; exact H). f_equal. exact (IH k c (or_introl eq_refl) (snd k) false).
Qed.
Definition entries_of (F : name) (L : list entry) : list (bool * symbol) := map (fun e => (snd (fst e), snd e)) (filter (fun e => name_eqb (fst (fst e)) F) L).
Lemma fsum_z obs F L : fsum Z.add 0 obs F (map node_of_entry L) = sumz (fun c => obs (fnode (if fst c : bool then s_head (snd c) else est (snd c)) (snd c))) (entries_of F L).
Proof. induction L as [|[[n b] s] L IH]; [reflexivity|]. cbn [map]. rewrite fsum_cons. unfold entries_of. cbn [filter fst snd node_of_entry]. fold (entries_of F L). destruct (name_eqb n F); [|exact IH]. cbn [map sumz fst snd]. fold (entries_of F L). rewrite IH. reflexivity. Qed.
Lemma fsum_b obs F L : fsum orb false obs F (map node_of_entry L) = existsb (fun c => obs (fnode (if fst c : bool then s_head (snd c) else est (snd c)) (snd c))) (entries_of F L).
Proof. induction L as [|[[n b] s] L IH]; [reflexivity|]. cbn [map]. rewrite fsum_cons. unfold entries_of. cbn [filter fst snd node_of_entry]. fold (entries_of F L). destruct (name_eqb n F); [|exact IH]. cbn [map existsb fst snd]. fold (entries_of F L). rewrite IH. reflexivity. Qed.
Lemma entries_in F L : In F (map fst (map node_of_entry L)) <-> entries_of F L <> [].
Proof.
  induction L as [|[[n b] s] L IH]; [cbn; tauto|]. cbn [map In node_of_entry fst]. unfold entries_of. cbn [filter fst]. fold (entries_of F L). destruct (name_eqb_spec n F) as [->|N].
  - cbn [map]. split; [discriminate|left; reflexivity].
  - fold (entries_of F L). rewrite <- IH. split; [intros [X|X]; [congruence|exact X]|right; assumption].
Qed.

Lemma at_line_est l s : at_line l (est_all (s_calls s)) = est_all (outs_at (fun _ => true) l s).
Proof.
  unfold at_line, est_all, outs_at. induction (s_calls s) as [|[[loc g] c] L IH]; [reflexivity|]. cbn [map filter fst snd]. rewrite IH. destruct (loc =? l); reflexivity.
Qed.

(** *** From the observers to the specification *)
Lemma gather (hd : symbol -> Z) (L : list entry) m0 m F s : smap_ok m ->
  (forall obs : owndata -> Z, obs own0 = 0 -> (forall a b, own_ok a -> own_ok b -> eqm (obs (own_add a b)) (obs a + obs b)) -> fadds eqm Z.add 0 obs (map node_of_entry L) m0 m) ->
  (forall obs : owndata -> bool, obs own0 = false -> (forall a b, own_ok a -> own_ok b -> obs (own_add a b) = obs a || obs b) -> fadds eq orb false obs (map node_of_entry L) m0 m) ->
  (forall c, In c (entries_of F L) -> (fst c = false -> est (snd c) = hd (snd c)) /\ forall k d, In (k, d) (s_calls (snd c)) -> est d = hd d) ->
  (forall q, view m0 F q = None) -> sm_find m F = Some s -> flat_copy hd (entries_of F L) s.
Proof.
  intros OM HZ HB HD V0 FS.
  assert (NS : node_of m F [] = Some s) by (unfold node_of; rewrite FS; reflexivity).
  assert (OS : sym_ok s).
  { unfold sm_find in FS. destruct (aget name_eqb F (sm_names m)); [|discriminate]. exact (ok_nth m _ s OM FS). }
  assert (VS : view m F [] = Some (own s)) by (unfold view; rewrite NS; reflexivity).
  assert (ZI : forall obs : owndata -> Z, obs own0 = 0 -> (forall a b, own_ok a -> own_ok b -> eqm (obs (own_add a b)) (obs a + obs b)) ->
    eqm (obs (own s)) (sumz (fun c => obs (fnode (if fst c : bool then s_head (snd c) else est (snd c)) (snd c))) (entries_of F L))).
  { intros obs H0 HA. destruct (HZ obs H0 HA) as (_ & _ & _ & _ & A). specialize (A F). unfold vat in A. rewrite VS, V0, fsum_z in A. exact A. }
  assert (BI : forall obs : owndata -> bool, obs own0 = false -> (forall a b, own_ok a -> own_ok b -> obs (own_add a b) = obs a || obs b) ->
    obs (own s) = existsb (fun c => obs (fnode (if fst c : bool then s_head (snd c) else est (snd c)) (snd c))) (entries_of F L)).
  { intros obs H0 HA. destruct (HB obs H0 HA) as (_ & _ & _ & _ & A). specialize (A F). unfold vat in A. rewrite VS, V0, fsum_b in A. exact A. }
  assert (ZJ : forall g : list (Z * pinfo) -> Z, g [] = 0 -> (forall d s, pos_ok d -> pos_ok s -> eqm (g (pos_add d s)) (g d + g s)) -> eqm (g (s_pos s)) (sumz (fun c => g (fbody (snd c))) (entries_of F L))).
  { intros g G0 GA. exact (ZI (opos g) G0 (opos_add g GA)). }
  assert (BJ : forall g : list (Z * pinfo) -> bool, g [] = false -> (forall d s, pos_ok d -> pos_ok s -> g (pos_add d s) = g d || g s) -> g (s_pos s) = existsb (fun c => g (fbody (snd c))) (entries_of F L)).
  { intros g G0 GA. assert (X : forall a b, own_ok a -> own_ok b -> opos g (own_add a b) = opos g a || opos g b) by (intros [[h t] q] [[h' t'] q'] (_ & _ & P) (_ & _ & P'); exact (GA q q' P P')).
    exact (BI (opos g) G0 X). }
  assert (HM : forall c l, In c (entries_of F L) -> map (fun kc => s_head (snd kc)) (est_all (outs_at (fun _ => true) l (snd c))) = map (fun kc => hd (snd kc)) (outs_at (fun _ => true) l (snd c))).
  { intros c l Hc. unfold est_all. rewrite map_map. apply map_ext_in. intros [k d] Hd. cbn [snd]. unfold outs_at in Hd. apply filter_In in Hd as [Hd _]. exact (proj2 (HD c Hc) k d Hd). }
  split; [|split; [|split]].
  - destruct (HZ ohead eq_refl ohead_add) as (_ & _ & A & _). destruct (s_calls s) as [|[k c] cs] eqn:E; [reflexivity|]. exfalso. assert (X : view m F [k] = None) by (rewrite A by discriminate; apply V0). unfold view, node_of in X. rewrite FS in X. cbn [node_at] in X. rewrite E in X. cbn [aget] in X.
    destruct (callsite_eqb_spec k k); [discriminate|congruence].
  - apply eqm_u64_mod; [exact (sym_ok_head s OS)|]. eapply eqm_trans; [apply (ZI ohead eq_refl ohead_add)|]. apply sumz_ext_eqm. intros c Hc. unfold fnode, ohead. cbn [fst]. destruct (fst c) eqn:B; [apply eqm_refl|]. rewrite (proj1 (HD c Hc) B). apply eqm_refl.
  - apply eqm_u64_mod; [exact (sym_ok_total s OS)|]. rewrite <- possum_spec by apply (sym_ok_pos s OS). pose proof (ZI obal eq_refl obal_add) as X.
    assert (Z0 : eqm (sumz (fun c => obal (fnode (if fst c : bool then s_head (snd c) else est (snd c)) (snd c))) (entries_of F L)) (sumz (fun _ => 0) (entries_of F L))).
    { apply sumz_ext_eqm. intros c _. unfold obal, fnode, ototal. cbn [fst snd]. destruct (csum_counts_eqm (fbody (snd c))) as [z ->]. exists z. lia. }
    assert (Z1 : forall l : list (bool * symbol), sumz (fun _ => 0) l = 0) by (induction l as [|x l IH]; cbn [sumz]; lia). rewrite Z1 in Z0. pose proof (eqm_trans _ _ _ X Z0) as [z Y]. unfold obal, own, ototal in Y. cbn [fst snd] in Y. exists z. lia.
  - intros l out.
    assert (PO : forall i, aget Z.eqb l (s_pos s) = Some i -> pinfo_ok i) by (intros i; apply pos_ok_get; apply sym_ok_pos; exact OS).
    split; [|split; [|split]].
    + destruct (obs_spec s l []) as (<- & _). apply eqm_u64_mod; [unfold inst_obs; destruct (aget Z.eqb l (s_pos s)) as [i|]; [apply (PO i eq_refl)|apply u64_0]|].
      eapply eqm_trans; [apply ZJ; [reflexivity|apply inst_obs_add]|]. apply sumz_ext_eqm. intros c _. unfold fbody. rewrite sites_inst. destruct (obs_spec (snd c) l []) as (-> & _). apply eqm_refl.
    + destruct (obs_spec s l []) as (_ & <- & _). apply eqm_u64_mod; [unfold count_obs; destruct (aget Z.eqb l (s_pos s)) as [i|]; [apply (PO i eq_refl)|apply u64_0]|].
      eapply eqm_trans; [apply ZJ; [reflexivity|apply count_obs_add]|]. apply sumz_ext_eqm. intros c Hc. unfold fbody. rewrite sites_count, at_line_est. match goal with |- context [map ?f (est_all ?x)] => replace (map f (est_all x)) with (map (fun kc : callsite * symbol => hd (snd kc)) x) by (symmetry; exact (HM c l Hc)) end. destruct (obs_spec (snd c) l []) as (_ & -> & _). apply eqm_refl.
    + destruct (obs_spec s l []) as (_ & _ & _ & <- & _). rewrite (BJ (there_obs l) eq_refl (there_add l)). rewrite existsb_exists.
      assert (Q : forall c, there_obs l (fbody (snd c : symbol)) = true <-> line_there out l (snd (c : bool * symbol))).
      { intros c. unfold fbody. rewrite sites_there, at_line_est. destruct (obs_spec (snd c) l []) as (_ & _ & _ & -> & _). unfold line_there, est_all. fold out. split; (intros [A|A]; [left; exact A|right]); [intros E; apply A; rewrite E; reflexivity|intros E; apply A; exact (map_eq_nil _ _ E)]. }
      split; intros (c & C1 & C2); exists c; (split; [exact C1|]); apply Q; exact C2.
    + intros t. split.
      * destruct (obs_spec s l t) as (_ & _ & <- & _). apply eqm_u64_mod.
        { unfold target_obs. destruct (aget Z.eqb l (s_pos s)) as [i|]; [|apply u64_0]. destruct (PO i eq_refl) as (_ & _ & [_ FT]). destruct (aget name_eqb t (p_targets i)) as [v|] eqn:V; [|apply u64_0]. apply aget_In in V; [|apply name_eqb_spec]. rewrite Forall_forall in FT. exact (FT _ V). }
        eapply eqm_trans; [apply ZJ; [reflexivity|apply target_obs_add]|]. apply sumz_ext_eqm. intros c Hc. eapply eqm_trans; [apply sites_target|]. rewrite at_line_est. destruct (obs_spec (snd c) l t) as (_ & _ & -> & _).
        unfold line_target. fold out. apply eqm_add; [apply eqm_refl|]. pose proof (HM c l Hc) as X. unfold est_all in *. revert X. fold out. generalize (outs_at out l (snd c)). clear. intros l0.
        induction l0 as [|[[loc g] d] l0 IH]; intros X; cbn [map sumz fst snd] in *; [apply eqm_refl|]. injection X as A B.
        apply eqm_add; [rewrite A; apply eqm_refl|exact (IH B)].
      * destruct (obs_spec s l t) as (_ & _ & _ & _ & <-). rewrite (BJ (tthere_obs l t) eq_refl (tthere_add l t)). rewrite existsb_exists.
        assert (Q : forall c, tthere_obs l t (fbody (snd c : symbol)) = true <-> target_there out l t (snd (c : bool * symbol))).
        { intros c. unfold fbody. rewrite sites_tthere, at_line_est. destruct (obs_spec (snd c) l t) as (_ & _ & _ & _ & ->). unfold target_there, est_all. fold out. split; (intros [A|(kc & K1 & K2)]; [left; exact A|right]).
          - apply in_map_iff in K1 as (kd & <- & K1). exists kd. split; [exact K1|exact K2].
          - exists (fst kc, EstimateHeadCount (snd kc)). split; [apply in_map_iff; exists kc; auto|exact K2]. }
        split; intros (c & C1 & C2); exists c; (split; [exact C1|]); apply Q; exact C2.
Qed.

(** *** The loop over the source *)
Lemma hot_step n f m : smap_ok m -> aget name_eqb n (sm_names m) = None -> sym_ok (f sym0) ->
  exists m1, sm_update n f (AddSymbol [] n m) = Ok m1 /\ smap_ok m1 /\ (forall G, aget name_eqb G (sm_names m1) = None <-> aget name_eqb G (sm_names m) = None /\ G <> n) /\
    forall G, sm_find m1 G = if name_eqb G n then Some (f sym0) else sm_find m G.
Proof.
  intros O N OF. destruct (add_self n m O) as (j & Ej & s & Es). pose proof (add_ok n m O) as O1.
  assert (S0 : s = sym0 /\ j = length (sm_heap m)).
  { assert (J : j = length (sm_heap m)) by (rewrite add_aget, N in Ej; destruct (name_eqb_spec n n); congruence). split; [|exact J]. subst j. unfold node_get, AddSymbol in Es. rewrite N in Es. cbn [sm_heap] in Es. rewrite nth_error_app2, Nat.sub_diag in Es by lia. cbn [nth_error node_at] in Es. congruence. }
  destruct S0 as [-> J].
  exists (node_upd j [] f (AddSymbol [] n m)). split; [|split; [|split]].
  - unfold sm_update, node_upd. rewrite Ej. unfold node_get in Es. destruct (nth_error (sm_heap (AddSymbol [] n m)) j); [reflexivity|discriminate].
  - exact (ok_upd _ j [] f sym0 O1 Es OF).
  - intros G. rewrite node_upd_names_aget, add_aget. destruct (aget name_eqb G (sm_names m)); [split; [discriminate|intros [X _]; discriminate]|]. destruct (name_eqb_spec G n); split; try discriminate; tauto.
  - intros G. unfold sm_find. rewrite node_upd_names_aget, add_aget. unfold node_upd, node_get in *. destruct (nth_error (sm_heap (AddSymbol [] n m)) j) as [r|] eqn:H; [|discriminate]. cbn [sm_heap node_at] in *. assert (r = sym0) as -> by congruence.
    assert (LT : (j < length (sm_heap (AddSymbol [] n m)))%nat) by (apply nth_error_Some; congruence). cbn [upd_at].
    destruct (aget name_eqb G (sm_names m)) as [i|] eqn:E.
    + destruct (name_eqb_spec G n) as [->|NE]; [congruence|]. destruct (find_some m G i O E) as [q Eq]. rewrite Eq. assert (i < length (sm_heap m))%nat by (apply nth_error_Some; congruence).
      rewrite nth_set_nth by exact LT. destruct (Nat.eqb_spec i j); [lia|]. exact (add_heap n m i q Eq).
    + destruct (name_eqb_spec G n) as [->|NE]; [|reflexivity]. rewrite <- J, nth_set_nth by exact LT. rewrite Nat.eqb_refl. reflexivity.
Qed.

Definition flattened (sel : bool) (thr : Z) (ns : name * symbol) : bool := negb (sel && (thr <=? s_total (snd ns))).
Lemma functions_cons n i names heap s : nth_error heap i = Some s -> functions (SMap ((n, i) :: names) heap) = (n, s) :: functions (SMap names heap).
Proof. intros E. unfold functions. cbn [sm_names sm_heap flat_map fst snd]. rewrite E. reflexivity. Qed.
Lemma functions_names names heap : (forall n i, In (n, i) names -> (i < length heap)%nat) -> map fst (functions (SMap names heap)) = map fst names.
Proof.
  induction names as [|[n i] names IH]; intros R; [reflexivity|]. destruct (nth_error heap i) as [s|] eqn:E; [|exfalso; apply nth_error_None in E; specialize (R n i (or_introl eq_refl)); lia].
  rewrite (functions_cons n i names heap s E). cbn [map fst]. rewrite IH; [reflexivity|]. intros n0 i0 H. apply (R n0 i0). right. exact H.
Qed.
Lemma flat_scan_ok sel thr heap : Forall sym_ok heap -> forall names work m nt nf, (forall n i, In (n, i) names -> (i < length heap)%nat) -> NoDup (map fst names) ->
  smap_ok m -> (forall n, In n (map fst names) -> aget name_eqb n (sm_names m) = None) ->
  let fs := functions (SMap names heap) in
  exists m' nt' nf', flat_scan sel thr heap names work m nt nf = Ok (rev (filter (flattened sel thr) fs) ++ work, m', nt', nf') /\ smap_ok m' /\
    (forall n s, In (n, s) fs -> flattened sel thr (n, s) = false -> sm_find m' n = Some (merge sym0 s)) /\
    (forall G, (forall s, In (G, s) fs -> flattened sel thr (G, s) = true) -> sm_find m' G = sm_find m G) /\
    eqm nt' (nt + zlen fs) /\ eqm nf' (nf + zlen (filter (flattened sel thr) fs)).
Proof.
  intros OH. induction names as [|[n i] names IH]; intros work m nt nf R ND O AB fs.
  - exists m, nt, nf. split; [reflexivity|]. split; [exact O|]. split; [intros n s []|]. split; [reflexivity|]. unfold zlen. cbn. rewrite !Z.add_0_r. split; apply eqm_refl.
  - cbn [flat_scan]. destruct (nth_error heap i) as [s|] eqn:E; [|exfalso; apply nth_error_None in E; specialize (R n i (or_introl eq_refl)); lia].
    unfold fs. clear fs. rewrite (functions_cons n i names heap s E). inversion ND as [|? ? NI ND']; subst. assert (R' : forall n i, In (n, i) names -> (i < length heap)%nat) by (intros n0 i0 H; apply (R n0 i0); right; exact H).
    assert (FN : forall G s', In (G, s') (functions (SMap names heap)) -> G <> n).
    { intros G s' H ->. apply NI. cbn [fst]. apply (in_map fst) in H. cbn [fst] in H. rewrite functions_names in H by exact R'. exact H. }
    assert (OS : sym_ok s) by (apply nth_error_In in E; rewrite Forall_forall in OH; exact (OH s E)).
    cbn [filter]. unfold flattened at 1. cbn [snd].
    assert (FL : flattened sel thr (n, s) = negb (sel && (thr <=? s_total s))) by reflexivity. rewrite FL.
    destruct (sel && (thr <=? s_total s)) eqn:C; cbn [negb] in *.
    + destruct (hot_step n (fun d => merge d s) m O (AB n (or_introl eq_refl)) (merge_ok s OS sym0 sym0_ok)) as (m1 & E1 & O1 & N1 & F1). rewrite E1. cbn [obind].
      destruct (IH work m1 (add64 nt 1) nf R' ND' O1) as (m' & nt' & nf' & E2 & O2 & H2 & C2 & T2 & F2).
      { intros G H. apply N1. split; [apply AB; right; exact H|]. intros ->. apply NI. exact H. }
      exists m', nt', nf'. split; [exact E2|]. split; [exact O2|]. split; [|split; [|split]].
      * intros G s' [X|X] Q; [|exact (H2 G s' X Q)]. assert (G = n /\ s' = s) as [-> ->] by (split; congruence). rewrite C2; [|intros s' H; exfalso; exact (FN n s' H eq_refl)]. rewrite F1. destruct (name_eqb_spec n n); [reflexivity|congruence].
      * intros G Q. rewrite C2; [|intros s' H; apply Q; right; exact H]. rewrite F1. destruct (name_eqb_spec G n) as [->|]; [|reflexivity]. specialize (Q s (or_introl eq_refl)). congruence.
      * rewrite zlen_cons. eapply eqm_trans; [exact T2|]. destruct (eqm_inc nt) as [z ->]. exists z. lia.
      * exact F2.
    + destruct (IH ((n, s) :: work) m (add64 nt 1) (add64 nf 1) R' ND' O) as (m' & nt' & nf' & E2 & O2 & H2 & C2 & T2 & F2); [intros G H; apply AB; right; exact H|].
      exists m', nt', nf'. split; [rewrite E2; cbn [rev]; rewrite <- app_assoc; reflexivity|]. split; [exact O2|]. split; [|split; [|split]].
      * intros G s' [X|X] Q; [|exact (H2 G s' X Q)]. rewrite <- X in Q. congruence.
      * intros G Q. apply C2. intros s' H. apply Q. right. exact H.
      * rewrite zlen_cons. eapply eqm_trans; [exact T2|]. destruct (eqm_inc nt) as [z ->]. exists z. lia.
      * rewrite zlen_cons. eapply eqm_trans; [exact F2|]. destruct (eqm_inc nf) as [z ->]. exists z. lia.
Qed.
Lemma copies_ok s : forall n b n' b' c, sym_ok s -> locs_ok s -> In (n', b', c) (copies n b s) -> sym_ok c /\ locs_ok c.
Proof.
  induction s as [h t ts pos cs IH] using symbol_ind'. intros n b n' b' c O L H. cbn [copies] in H. destruct H as [H|H]; [assert (c = Sym h t ts pos cs) as -> by congruence; auto|].
  apply in_flat_map in H as ([k d] & K & H). cbn [fst snd] in H. inversion O; subst. inversion L as [? L1 L2]; subst. cbn [s_calls] in L2. destruct (L2 k d K) as [_ Ld]. apply (IH k d K (snd k) false n' b' c); eauto.
Qed.
Lemma est_entry c : sym_ok c -> locs_ok c -> entry_count c (est c).
Proof. apply C09_head_estimate. Qed.
Lemma same_merge0 s : sym_ok s -> same_profile (merge sym0 s) s.
Proof.
  intros O p l t. destruct (merge_pointwise sym0 s sym0_ok O p l t) as (A1 & A2 & A3 & A4 & A5 & A6 & A7 & A8).
  assert (Z0 : (p = [] \/ has_node sym0 p = false) /\ total_at sym0 p = 0 /\ head_at sym0 p = 0 /\ has_pos sym0 p l = false /\ count_at sym0 p l = 0 /\ ninst_at sym0 p l = 0 /\ has_target sym0 p l t = false /\ target_at sym0 p l t = 0).
  { destruct p; repeat split; auto. }
  destruct Z0 as (Z1 & Z2 & Z3 & Z4 & Z5 & Z6 & Z7 & Z8). rewrite A2, A3, A4, A5, A6, A7, A8, Z2, Z3, Z4, Z5, Z6, Z7, Z8. cbn [orb]. rewrite !Z.add_0_l.
  split. { rewrite A1. destruct Z1 as [->|Z1]; [reflexivity|]. rewrite Z1. reflexivity. }
  split; [|split; [|split; [reflexivity|]]].
  - unfold total_at. destruct (node_at s p) as [d|] eqn:E; [|reflexivity]. apply Z.mod_small. apply sym_ok_total. exact (node_at_ok _ _ _ O E).
  - unfold head_at. destruct (node_at s p) as [d|] eqn:E; [|reflexivity]. apply Z.mod_small. apply sym_ok_head. exact (node_at_ok _ _ _ O E).
  - assert (P : match pos_at s p l with Some i => pinfo_ok i | None => True end).
    { unfold pos_at. destruct (node_at s p) as [d|] eqn:E; [|exact Logic.I]. destruct (aget Z.eqb l (s_pos d)) as [i|] eqn:X; [|exact Logic.I]. eapply pos_ok_get; [|exact X]. apply sym_ok_pos. exact (node_at_ok _ _ _ O E). }
    unfold count_at, ninst_at, target_at. destruct (pos_at s p l) as [i|]; [|auto]. destruct P as (P1 & P2 & [_ P3]). split; [apply Z.mod_small; exact P1|]. split; [apply Z.mod_small; exact P2|]. split; [reflexivity|].
    unfold tget. destruct (aget name_eqb t (p_targets i)) as [v|] eqn:V; [|reflexivity]. apply Z.mod_small. apply aget_In in V; [|apply name_eqb_spec]. rewrite Forall_forall in P3. exact (P3 _ V).
Qed.

Definition entries (sel : bool) (thr : Z) (fs : list (name * symbol)) : list entry :=
  if sel then map (fun ns => (fst ns, true, snd ns)) (filter (flattened true thr) fs) else flat_map (fun ns => copies (fst ns) true (snd ns)) fs.
Lemma work_entries sel thr fs : Permutation (work_nodes sel (rev (filter (flattened sel thr) fs) ++ [])) (map node_of_entry (entries sel thr fs)).
Proof.
  rewrite app_nil_r. unfold work_nodes, entries. eapply Permutation_trans; [apply Permutation_flat_map; apply Permutation_sym, Permutation_rev|]. destruct sel.
  - assert (X : forall l : list (name * symbol), flat_map (fun w => [(fst w, fnode (s_head (snd w)) (snd w))]) l = map node_of_entry (map (fun ns => (fst ns, true, snd ns)) l)).
    { induction l as [|x l IH]; [reflexivity|]. cbn [flat_map map app]. rewrite IH. reflexivity. }
    rewrite X. apply Permutation_refl.
  - assert (FA : filter (flattened false thr) fs = fs) by (induction fs as [|x l IH]; [reflexivity|]; cbn [filter flattened andb negb]; rewrite IH; reflexivity). rewrite FA.
    assert (X : flat_map (fun w => fl (fst w) (s_head (snd w)) (snd w)) fs = map node_of_entry (flat_map (fun ns => copies (fst ns) true (snd ns)) fs)).
    { clear. induction fs as [|[n s] l IH]; [reflexivity|]. cbn [flat_map fst snd]. rewrite map_app, <- IH. f_equal. exact (fl_copies s n true). }
    rewrite X. apply Permutation_refl.
Qed.
Lemma build_ok sel thr src : smap_ok src ->
  exists m0 m nt nf, BuildFlatProfile sel thr src (SMap [] []) 0 0 = Ok (m, nt, nf) /\ smap_ok m /\
    nt mod 2 ^ 64 = zlen (functions src) mod 2 ^ 64 /\ nf mod 2 ^ 64 = zlen (filter (flattened sel thr) (functions src)) mod 2 ^ 64 /\
    (forall n s, In (n, s) (functions src) -> flattened sel thr (n, s) = false -> sm_find m0 n = Some (merge sym0 s)) /\
    (forall G, (forall s, In (G, s) (functions src) -> flattened sel thr (G, s) = true) -> sm_find m0 G = None) /\
    (forall obs : owndata -> Z, obs own0 = 0 -> (forall a b, own_ok a -> own_ok b -> eqm (obs (own_add a b)) (obs a + obs b)) -> fadds eqm Z.add 0 obs (map node_of_entry (entries sel thr (functions src))) m0 m) /\
    (forall obs : owndata -> bool, obs own0 = false -> (forall a b, own_ok a -> own_ok b -> obs (own_add a b) = obs a || obs b) -> fadds eq orb false obs (map node_of_entry (entries sel thr (functions src))) m0 m).
Proof.
  intros O. assert (OH : Forall sym_ok (sm_heap src)) by apply O.
  assert (RG : forall n i, In (n, i) (sm_names src) -> (i < length (sm_heap src))%nat).
  { intros n i H. destruct O as [[_ O2] _]. apply (in_map snd) in H. rewrite O2 in H. apply in_seq in H. cbn [snd] in H. lia. }
  assert (O0 : smap_ok (SMap [] [])) by (split; [split; constructor|constructor]).
  destruct (flat_scan_ok sel thr (sm_heap src) OH (sm_names src) [] (SMap [] []) 0 0 RG (proj1 (proj1 O)) O0 ltac:(reflexivity)) as (m0 & nt & nf & E0 & O1 & H1 & C1 & T1 & F1).
  replace (SMap (sm_names src) (sm_heap src)) with src in * by (destruct src; reflexivity).
  set (work := rev (filter (flattened sel thr) (functions src)) ++ []) in *.
  assert (FO : forall n s, In (n, s) (functions src) -> sym_ok s).
  { intros n s H. unfold functions in H. apply in_flat_map in H as ([n' i] & _ & H). cbn [fst snd] in H. destruct (nth_error (sm_heap src) i) as [r|] eqn:E; [|destruct H]. destruct H as [H|[]]. assert (r = s) as -> by congruence. apply nth_error_In in E. rewrite Forall_forall in OH. exact (OH s E). }
  assert (WO : Forall (fun w => sym_ok (snd w)) work).
  { unfold work. rewrite app_nil_r. apply Forall_rev, Forall_forall. intros [n s] H. apply filter_In in H as [H _]. exact (FO n s H). }
  assert (WZ : forall obs : owndata -> Z, obs own0 = 0 -> (forall a b, own_ok a -> own_ok b -> eqm (obs (own_add a b)) (obs a + obs b)) ->
     exists m, flat_work sel (work_size work) work m0 = Ok m /\ fadds eqm Z.add 0 obs (map node_of_entry (entries sel thr (functions src))) m0 m).
  { intros obs A0 A1. destruct (work_ok eqm Z.add 0 obs eqm_refl eqm_sym eqm_trans eqm_add eqm_comm eqm_assoc eqm_id ltac:(rewrite A0; apply eqm_refl) A1 sel (work_size work) work m0 (le_n _) O1 WO) as (m & E & A).
    exists m. split; [exact E|]. exact (fadds_perm eqm Z.add 0 obs eqm_refl eqm_sym eqm_trans eqm_add eqm_comm eqm_assoc _ _ _ _ (work_entries sel thr (functions src)) A). }
  destruct (WZ ohead eq_refl ohead_add) as (m & E & A). exists m0, m, nt, nf. split; [|split; [|split; [|split; [|split; [|split; [|split]]]]]].
  - unfold BuildFlatProfile. rewrite E0. cbn [obind]. fold (work_size work). rewrite E. reflexivity.
  - exact (proj1 (proj1 A)).
  - rewrite (eqm_mod _ _ T1). reflexivity.
  - rewrite (eqm_mod _ _ F1). reflexivity.
  - exact H1.
  - exact C1.
  - intros obs A0 A1. destruct (WZ obs A0 A1) as (m' & E' & A'). assert (m' = m) as -> by congruence. exact A'.
  - intros obs A0 A1. destruct (work_ok (@eq bool) orb false obs) with (sel := sel) (fuel := work_size work) (work := work) (m := m0) as (m' & E' & A'); try (intros; congruence); auto using Bool.orb_comm, Bool.orb_assoc, Bool.orb_false_r.
    assert (m' = m) as -> by congruence. apply (fadds_perm (@eq bool) orb false obs) with (L := work_nodes sel work); try (intros; congruence); auto using Bool.orb_comm, Bool.orb_assoc. exact (work_entries sel thr (functions src)).
Qed.
Lemma function_ok src n s : smap_ok src -> In (n, s) (functions src) -> sym_ok s.
Proof.
  intros O H. unfold functions in H. apply in_flat_map in H as ([n' i] & _ & H). cbn [fst snd] in H. destruct (nth_error (sm_heap src) i) as [r|] eqn:E; [|destruct H]. destruct H as [H|[]]. assert (r = s) as -> by congruence.
  apply nth_error_In in E. destruct O as [_ OH]. rewrite Forall_forall in OH. exact (OH s E).
Qed.

(** For every profile whose functions share no object (and use no location
    2^64 - 1), the flat profile has exactly the functions that occur in the
    source, outlined or inlined, and each is the flat version of all its copies,
    an inlined copy being entered as often as its first line or call counts. *)
Theorem C56_flat thr src : smap_ok src -> (forall n s, In (n, s) (functions src) -> locs_ok s) ->
  exists m nt nf hd, BuildFlatProfile false thr src (SMap [] []) 0 0 = Ok (m, nt, nf) /\ smap_ok m /\
    nt mod 2 ^ 64 = zlen (functions src) mod 2 ^ 64 /\ nf mod 2 ^ 64 = zlen (functions src) mod 2 ^ 64 /\
    (forall F c, In (false, c) (copies_of F src) -> entry_count c (hd c)) /\
    (forall F, sm_find m F <> None <-> copies_of F src <> []) /\
    (forall F s, sm_find m F = Some s -> flat_copy hd (copies_of F src) s).
Proof.
  intros O LO. destruct (build_ok false thr src O) as (m0 & m & nt & nf & E & OM & T & N & _ & C & HZ & HB). exists m, nt, nf, est.
  assert (FA : forall l, filter (flattened false thr) l = l) by (induction l as [|x l IH]; [reflexivity|]; cbn [filter flattened andb negb]; rewrite IH; reflexivity). rewrite FA in N.
  assert (V0 : forall F q, view m0 F q = None) by (intros F q; unfold view, node_of; rewrite C by reflexivity; reflexivity).
  assert (EO : forall F, entries_of F (entries false thr (functions src)) = copies_of F src) by reflexivity.
  split; [exact E|]. split; [exact OM|]. split; [exact T|]. split; [exact N|]. split; [|split].
  - intros F c H. unfold copies_of in H. apply in_map_iff in H as ([[n b] d] & X & H). cbn [fst snd] in X. assert (d = c) as -> by congruence. apply filter_In in H as [H _]. apply in_flat_map in H as ([n' s] & H1 & H2). cbn [fst snd] in H2.
    destruct (copies_ok s n' true n b c (function_ok src n' s O H1) (LO n' s H1) H2). apply est_entry; assumption.
  - intros F. destruct (HZ ohead eq_refl ohead_add) as (_ & P & _). specialize (P F). rewrite V0, entries_in, EO in P. unfold view, node_of in P.
    destruct (sm_find m F); cbn [node_at option_map] in P; split; intros H; try congruence; try (destruct P as [P1 P2]; try (destruct (P1 ltac:(discriminate)) as [X|X]; [congruence|exact X]); exfalso; apply (P2 (or_intror H)); reflexivity); try discriminate; try (apply P; discriminate).
  - intros F s FS. rewrite <- EO. apply (gather est (entries false thr (functions src)) m0 m F s OM HZ HB); auto.
Qed.
Print Assumptions C56_flat.

(** With selective flattening the functions are those of the source; one whose
    total reaches the threshold keeps its inlined callees and all its data, any
    other one is the flat version of itself alone. *)
Theorem C56_selective thr src : smap_ok src -> (forall n s, In (n, s) (functions src) -> locs_ok s) ->
  exists m nt nf hd, BuildFlatProfile true thr src (SMap [] []) 0 0 = Ok (m, nt, nf) /\ smap_ok m /\
    nt mod 2 ^ 64 = zlen (functions src) mod 2 ^ 64 /\
    nf mod 2 ^ 64 = zlen (filter (fun ns => s_total (snd ns) <? thr) (functions src)) mod 2 ^ 64 /\
    (forall n s k c, In (n, s) (functions src) -> In (k, c) (s_calls s) -> entry_count c (hd c)) /\
    (forall F, sm_find m F <> None <-> exists s, In (F, s) (functions src)) /\
    (forall F s, In (F, s) (functions src) -> exists s', sm_find m F = Some s' /\
       if thr <=? s_total s then same_profile s' s else flat_copy hd [(true, s)] s').
Proof.
  intros O LO. destruct (build_ok true thr src O) as (m0 & m & nt & nf & E & OM & T & N & H & C & HZ & HB). exists m, nt, nf, est.
  assert (ND : NoDup (map fst (functions src))).
  { assert (RG : forall n i, In (n, i) (sm_names src) -> (i < length (sm_heap src))%nat).
    { intros n i K. destruct O as [[_ O2] _]. apply (in_map snd) in K. rewrite O2 in K. apply in_seq in K. cbn [snd] in K. lia. }
    replace src with (SMap (sm_names src) (sm_heap src)) by (destruct src; reflexivity). rewrite functions_names by exact RG. apply O. }
  assert (UQ : forall F s s', In (F, s) (functions src) -> In (F, s') (functions src) -> s = s').
  { clear - ND. induction (functions src) as [|[n r] l IH]; intros F s s' A B; [destruct A|]. cbn [map fst] in ND. inversion ND as [|? ? NI ND']; subst.
    destruct A as [A|A], B as [B|B]; [congruence| | |exact (IH ND' F s s' A B)]; exfalso; apply NI; [assert (F = n) as <- by congruence; apply (in_map fst) in B; exact B|assert (F = n) as <- by congruence; apply (in_map fst) in A; exact A]. }
  assert (EN : forall F, In F (map fst (map node_of_entry (entries true thr (functions src)))) <-> exists s, In (F, s) (functions src) /\ flattened true thr (F, s) = true).
  { intros F. unfold entries. rewrite map_map, map_map. cbn [node_of_entry fst]. rewrite in_map_iff. split.
    - intros ([n s] & <- & K). apply filter_In in K as [K1 K2]. exists s. auto.
    - intros (s & K1 & K2). exists (F, s). split; [reflexivity|]. apply filter_In. auto. }
  assert (KEEP : forall F s, In (F, s) (functions src) -> flattened true thr (F, s) = false -> sm_find m F = Some (merge sym0 s)).
  { intros F s K Q. destruct (HZ ohead eq_refl ohead_add) as (_ & _ & _ & P & _). rewrite P; [exact (H F s K Q)|]. rewrite EN. intros (s' & K' & Q'). rewrite (UQ F s s' K K') in Q. congruence. }
  assert (COLD : forall F s, In (F, s) (functions src) -> flattened true thr (F, s) = true -> exists s', sm_find m F = Some s' /\ flat_copy est [(true, s)] s').
  { intros F s K Q. destruct (HZ ohead eq_refl ohead_add) as (_ & P & _). specialize (P F). destruct (sm_find m F) as [s'|] eqn:FS.
    2:{ exfalso. destruct P as [_ P]. apply P; [right; apply EN; exists s; auto|]. unfold view, node_of. rewrite FS. reflexivity. }
    exists s'. split; [reflexivity|].
    assert (EO : entries_of F (entries true thr (functions src)) = [(true, s)]).
    { unfold entries_of, entries. clear - ND K Q. induction (functions src) as [|[n r] l IH]; [destruct K|]. cbn [map fst] in ND. inversion ND as [|? ? NI ND']; subst. cbn [filter].
      destruct K as [K|K].
      - assert (n = F /\ r = s) as [-> ->] by (split; congruence). rewrite Q. cbn [map filter fst snd]. destruct (name_eqb_spec F F) as [_|]; [|congruence]. cbn [map fst snd].
        assert (Z : filter (fun e : entry => name_eqb (fst (fst e)) F) (map (fun ns : name * symbol => (fst ns, true, snd ns)) (filter (flattened true thr) l)) = []).
        { clear - NI. induction l as [|[n r] l IH]; [reflexivity|]. cbn [map fst In] in NI. cbn [filter]. destruct (flattened true thr (n, r)); cbn [map filter fst snd]; [|apply IH; tauto]. destruct (name_eqb_spec n F); [exfalso; apply NI; left; assumption|apply IH; tauto]. }
        rewrite Z. reflexivity.
      - assert (NE : n <> F) by (intros ->; apply NI; apply (in_map fst) in K; exact K). destruct (flattened true thr (n, r)); cbn [map filter fst snd]; [|exact (IH ND' K)]. destruct (name_eqb_spec n F); [congruence|exact (IH ND' K)]. }
    rewrite <- EO. apply (gather est (entries true thr (functions src)) m0 m F s' OM HZ HB); auto.
    intros q. unfold view, node_of. rewrite C; [reflexivity|]. intros r Kr. rewrite <- (UQ F s r K Kr). exact Q. }
  assert (FE : forall ns, flattened true thr ns = (s_total (snd ns) <? thr)) by (intros ns; unfold flattened; cbn [andb]; rewrite Z.ltb_antisym; reflexivity).
  split; [exact E|]. split; [exact OM|]. split; [exact T|]. split; [|split; [|split]].
  - rewrite N. f_equal. f_equal. apply filter_ext. exact FE.
  - intros n s k c K1 K2. pose proof (function_ok src n s O K1) as OS. pose proof (LO n s K1) as LS. inversion OS; subst. inversion LS as [? L1 L2]; subst. cbn [s_calls] in *. destruct (L2 k c K2). apply est_entry; eauto.
  - intros F. split.
    + intros FS. destruct (HZ ohead eq_refl ohead_add) as (_ & P & _). specialize (P F). assert (V : view m F [] <> None) by (unfold view, node_of; destruct (sm_find m F); [discriminate|congruence]).
      apply P in V as [V|V]; [|apply EN in V as (s & K & _); exists s; exact K]. destruct (in_dec (list_eq_dec Z.eq_dec) F (map fst (functions src))) as [I|NI].
      * apply in_map_iff in I as ([n s] & <- & I). exists s. exact I.
      * exfalso. apply V. unfold view, node_of. rewrite C; [reflexivity|]. intros s K. exfalso. apply NI. apply (in_map fst) in K. exact K.
    + intros (s & K). destruct (flattened true thr (F, s)) eqn:Q; [destruct (COLD F s K Q) as (s' & -> & _); discriminate|rewrite (KEEP F s K Q); discriminate].
  - intros F s K. pose proof (FE (F, s)) as Q. cbn [snd] in Q. rewrite Z.ltb_antisym in Q. destruct (thr <=? s_total s); cbn [negb] in Q.
    + exists (merge sym0 s). split; [exact (KEEP F s K Q)|]. apply same_merge0. exact (function_ok src F s O K).
    + exact (COLD F s K Q).
Qed.
Print Assumptions C56_selective.
