(** C57: hybrid profiles. *)
From Verif Require Import Base AssocFold SymbolModel SymbolSpec SymbolProofs AttribProofs AfdoModel AfdoReadProofs
  FlattenModel FlattenSpec FlattenPureProofs FlattenMapProofs FlattenAllProofs HybridModel HybridSpec HybridViewProofs HybridBodyProofs HybridPopProofs.

(** *** The observers *)
Definition ohead (o : owndata) : Z := fst (fst o).
Definition ototal (o : owndata) : Z := snd (fst o).
Definition opos {A} (g : list (Z * pinfo) -> A) (o : owndata) : A := g (snd o).

Lemma eqm_comm a b : eqm (a + b) (b + a). Proof. exists 0. lia. Qed.
Lemma eqm_assoc a b c : eqm (a + (b + c)) (a + b + c). Proof. exists 0. lia. Qed.
Lemma eqm_id a : eqm (a + 0) a. Proof. exists 0. lia. Qed.
Lemma ohead_add a b : own_ok a -> own_ok b -> eqm (ohead (own_add a b)) (ohead a + ohead b).
Proof. destruct a as [[h t] p], b as [[h' t'] p']. intros _ _. apply eqm_u64. Qed.
Lemma ototal_add a b : own_ok a -> own_ok b -> eqm (ototal (own_add a b)) (ototal a + ototal b).
Proof. destruct a as [[h t] p], b as [[h' t'] p']. intros _ _. apply eqm_u64. Qed.
Lemma opos_add (g : list (Z * pinfo) -> Z) : (forall d s, pos_ok d -> pos_ok s -> eqm (g (pos_add d s)) (g d + g s)) ->
  forall a b, own_ok a -> own_ok b -> eqm (opos g (own_add a b)) (opos g a + opos g b).
Proof. intros H [[h t] p] [[h' t'] p'] (_ & _ & P) (_ & _ & P'). exact (H p p' P P'). Qed.
Lemma there_add l d s : pos_ok d -> pos_ok s -> there_obs l (pos_add d s) = there_obs l d || there_obs l s.
Proof. intros _ P. unfold there_obs. rewrite (pget_add l d s P). destruct (aget Z.eqb l s), (aget Z.eqb l d); reflexivity. Qed.
Lemma tthere_add l t d s : pos_ok d -> pos_ok s -> tthere_obs l t (pos_add d s) = tthere_obs l t d || tthere_obs l t s.
Proof.
  intros _ P. unfold tthere_obs. rewrite (pget_add l d s P). destruct (aget Z.eqb l s) as [i|] eqn:E; [|rewrite Bool.orb_false_r; reflexivity].
  cbn [pinfo_add p_targets]. rewrite (aget_targets_add t); [|destruct (pos_ok_get _ _ _ P E) as (_ & _ & [N _]); exact N]. unfold pget. destruct (aget Z.eqb l d); reflexivity.
Qed.

(** *** From the sums of the proofs to those of the specification *)
Lemma csum_z thr (obs : owndata -> Z) F p l :
  csum thr Z.add 0 obs F p l = sumz (fun s => obs (node_own thr s)) (map snd (filter (fun e => name_eqb (fst (fst e)) F && path_eqb (snd (fst e)) p) l)).
Proof.
  induction l as [|[[n q] s] l IH]; [reflexivity|]. cbn [csum fold_right filter fst snd]. fold (csum thr Z.add 0 obs F p l). rewrite IH.
  unfold here. destruct (name_eqb_spec F n) as [->|N]; cbn [andb].
  - destruct (name_eqb_spec n n); [|congruence]. cbn [andb]. destruct (path_eqb_spec p q) as [->|N2]; [destruct (path_eqb_spec q q); [reflexivity|congruence]|destruct (path_eqb_spec q p); [congruence|reflexivity]].
  - destruct (name_eqb_spec n F); [congruence|reflexivity].
Qed.
Lemma csum_b thr (obs : owndata -> bool) F p l :
  csum thr orb false obs F p l = existsb (fun s => obs (node_own thr s)) (map snd (filter (fun e => name_eqb (fst (fst e)) F && path_eqb (snd (fst e)) p) l)).
Proof.
  induction l as [|[[n q] s] l IH]; [reflexivity|]. cbn [csum fold_right filter fst snd]. fold (csum thr orb false obs F p l). rewrite IH.
  unfold here. destruct (name_eqb_spec F n) as [->|N]; cbn [andb].
  - destruct (name_eqb_spec n n); [|congruence]. cbn [andb]. destruct (path_eqb_spec p q) as [->|N2]; [destruct (path_eqb_spec q q); [reflexivity|congruence]|destruct (path_eqb_spec q p); [congruence|reflexivity]].
  - destruct (name_eqb_spec n F); [congruence|reflexivity].
Qed.
Lemma sumz_ext_eqm {A} (f g : A -> Z) l : (forall x, In x l -> eqm (f x) (g x)) -> eqm (sumz f l) (sumz g l).
Proof. induction l as [|x l IH]; intros H; cbn [sumz]; [apply eqm_refl|]. apply eqm_add; [apply H; left; reflexivity|apply IH; intros y Hy; apply H; right; exact Hy]. Qed.
Lemma sumz_ext {A} (f g : A -> Z) l : (forall x, In x l -> f x = g x) -> sumz f l = sumz g l.
Proof. induction l as [|x l IH]; intros H; cbn [sumz]; [reflexivity|]. rewrite (H x (or_introl eq_refl)), IH; [reflexivity|]. intros y Hy; apply H; right; exact Hy. Qed.
Lemma eqm_u64_mod a b : is_u64 a -> eqm a b -> a = b mod 2 ^ 64.
Proof. intros H E. rewrite <- (eqm_mod _ _ E). symmetry. apply Z.mod_small. exact H. Qed.

Definition is_out (thr : Z) (c : symbol) : bool := s_total c <=? thr.
Lemma filter_filter {A} (f g : A -> bool) l : filter f (filter g l) = filter (fun x => f x && g x) l.
Proof. induction l as [|x l IH]; [reflexivity|]. cbn [filter]. destruct (g x); cbn [filter]; rewrite IH; destruct (f x); cbn [andb]; reflexivity. Qed.
Lemma at_line_cold thr l s : at_line l (cold_calls thr s) = outs_at (fun c => s_total c <=? thr) l s.
Proof. unfold at_line, cold_calls, outs_at. apply filter_filter. Qed.

(** For every profile whose functions share no object, building the hybrid
    profile succeeds, and the result has a function F with a chain p of inlined
    calls exactly if some node of the source belongs there, an inlined callee
    whose total is at most the threshold counting as a function of its own.
    Head count, total, and number of instructions of every line are the sums
    over the nodes that belong there; the count of a line is the sum of the
    counts of these nodes, a node counting at least as much as each callee at
    that line that became a call; call targets are the sums of the call targets
    of the nodes and of the head counts of callees that became calls. *)
Theorem C57_hybrid thr src : smap_ok src ->
  exists m tot num, BuildHybridProfile thr src (SMap [] []) 0 0 = Ok (m, tot, num) /\ smap_ok m /\
    (forall F p, node_of m F p <> None <-> placed_at thr F p src <> []) /\
    (forall F p s, node_of m F p = Some s ->
       let nodes := placed_at thr F p src in let out c := s_total c <=? thr in
       s_head s = sumz s_head nodes mod 2 ^ 64 /\ s_total s = sumz s_total nodes mod 2 ^ 64 /\
       forall l, ninst_at s [] l = sumz (fun c => ninst_at c [] l) nodes mod 2 ^ 64 /\
         count_at s [] l = sumz (line_count out s_head l) nodes mod 2 ^ 64 /\
         (has_pos s [] l = true <-> exists c, In c nodes /\ line_there out l c) /\
         forall t, target_at s [] l t = sumz (line_target out s_head l t) nodes mod 2 ^ 64 /\
           (has_target s [] l t = true <-> exists c, In c nodes /\ target_there out l t c)).
Proof.
  intros O.
  assert (OH : Forall sym_ok (sm_heap src)) by apply O.
  assert (RG : forall n i, In (n, i) (sm_names src) -> (i < length (sm_heap src))%nat).
  { intros n i H. destruct O as [[_ O2] _]. apply (in_map snd) in H. rewrite O2 in H. apply in_seq in H. cbn [snd] in H. lia. }
  assert (O0 : smap_ok (SMap [] [])) by (split; [split; constructor|constructor]).
  assert (EV : forall G q, view (SMap [] []) G q = None) by reflexivity.
  assert (ZI : forall obs : owndata -> Z, obs own0 = 0 -> (forall a b, own_ok a -> own_ok b -> eqm (obs (own_add a b)) (obs a + obs b)) ->
    exists m tot num, BuildHybridProfile thr src (SMap [] []) 0 0 = Ok (m, tot, num) /\ smap_ok m /\
      (forall G q, view m G q <> None <-> In (G, q) (map fst (all_placed thr (functions src)))) /\
      (forall G q, eqm (vobs 0 obs m G q) (sumz (fun s => obs (node_own thr s)) (placed_at thr G q src)))).
  { intros obs H0 HA. destruct (scan_ok thr eqm Z.add 0 obs eqm_refl eqm_sym eqm_trans eqm_add eqm_comm eqm_assoc eqm_id ltac:(rewrite H0; apply eqm_refl) HA (sm_heap src) OH (sm_names src) RG (SMap [] []) 0 0 O0)
      as (m & tot & num & R & (A1 & A2 & A3) & _). exists m, tot, num. split; [exact R|]. split; [apply A1|]. replace (SMap (sm_names src) (sm_heap src)) with src in * by (destruct src; reflexivity). split.
    - intros G q. rewrite A2, EV. tauto.
    - intros G q. eapply eqm_trans; [apply A3|]. unfold vobs. rewrite EV, csum_z. apply eqm_refl. }
  assert (BI : forall obs : owndata -> bool, obs own0 = false -> (forall a b, own_ok a -> own_ok b -> obs (own_add a b) = obs a || obs b) ->
    exists m tot num, BuildHybridProfile thr src (SMap [] []) 0 0 = Ok (m, tot, num) /\
      (forall G q, vobs false obs m G q = existsb (fun s => obs (node_own thr s)) (placed_at thr G q src))).
  { intros obs H0 HA. destruct (scan_ok thr (@eq bool) orb false obs) with (heap := sm_heap src) (names := sm_names src) (m := SMap [] []) (tot := 0) (num := 0)
      as (m & tot & num & R & (A1 & A2 & A3) & _); try (intros; congruence); auto using Bool.orb_comm, Bool.orb_assoc, Bool.orb_false_r.
    exists m, tot, num. split; [exact R|]. replace (SMap (sm_names src) (sm_heap src)) with src in * by (destruct src; reflexivity).
    intros G q. rewrite A3. unfold vobs. rewrite EV, csum_b. reflexivity. }
  destruct (ZI ohead eq_refl ohead_add) as (m & tot & num & R & OM & PR & HD). exists m, tot, num. split; [exact R|]. split; [exact OM|].
  assert (ZI' : forall obs : owndata -> Z, obs own0 = 0 -> (forall a b, own_ok a -> own_ok b -> eqm (obs (own_add a b)) (obs a + obs b)) ->
     forall G q, eqm (vobs 0 obs m G q) (sumz (fun s => obs (node_own thr s)) (placed_at thr G q src))).
  { intros obs H0 HA. destruct (ZI obs H0 HA) as (m' & t' & n' & R' & _ & _ & X). assert (m' = m) as -> by congruence. exact X. }
  assert (BI' : forall obs : owndata -> bool, obs own0 = false -> (forall a b, own_ok a -> own_ok b -> obs (own_add a b) = obs a || obs b) ->
     forall G q, vobs false obs m G q = existsb (fun s => obs (node_own thr s)) (placed_at thr G q src)).
  { intros obs H0 HA. destruct (BI obs H0 HA) as (m' & t' & n' & R' & X). assert (m' = m) as -> by congruence. exact X. }
  clear ZI BI. split.
  { intros F p. transitivity (view m F p <> None); [unfold view; destruct (node_of m F p); cbn [option_map]; split; congruence|]. rewrite PR. unfold placed_at, all_placed. split.
    - intros H E. apply in_map_iff in H as ([[n q] s] & H1 & H2). cbn [fst] in H1. injection H1 as -> ->.
      apply map_eq_nil in E. assert (K : In (F, p, s) (filter (fun e => name_eqb (fst (fst e)) F && path_eqb (snd (fst e)) p) (flat_map (fun ns => placed thr (fst ns) [] (snd ns)) (functions src)))).
      { apply filter_In. split; [exact H2|]. cbn [fst snd]. destruct (name_eqb_spec F F), (path_eqb_spec p p); try congruence; reflexivity. } rewrite E in K. exact K.
    - intros E. destruct (filter (fun e => name_eqb (fst (fst e)) F && path_eqb (snd (fst e)) p) (flat_map (fun ns => placed thr (fst ns) [] (snd ns)) (functions src))) as [|[[n q] s] L] eqn:Q; [exfalso; apply E; reflexivity|].
      assert (K : In (n, q, s) ((n, q, s) :: L)) by (left; reflexivity). rewrite <- Q in K. apply filter_In in K as [K1 K2]. cbn [fst snd] in K2. apply andb_prop in K2 as [K2 K3].
      destruct (name_eqb_spec n F), (path_eqb_spec q p); try discriminate. subst. apply in_map_iff. exists (F, p, s). split; [reflexivity|exact K1]. }
  intros F p s NS nodes out.
  assert (OS : sym_ok s).
  { unfold node_of in NS. destruct (sm_find m F) as [r|] eqn:Fr; [|discriminate]. eapply node_at_ok; [|exact NS]. unfold sm_find in Fr. destruct (aget name_eqb F (sm_names m)); [|discriminate]. exact (ok_nth m _ r OM Fr). }
  assert (VS : view m F p = Some (own s)) by (unfold view; rewrite NS; reflexivity).
  assert (ZJ : forall g : list (Z * pinfo) -> Z, g [] = 0 -> (forall d s, pos_ok d -> pos_ok s -> eqm (g (pos_add d s)) (g d + g s)) ->
     eqm (g (s_pos s)) (sumz (fun c => g (flatten_sites (cold_calls thr c) (s_pos c))) nodes)).
  { intros g G0 GA. pose proof (ZI' (opos g) G0 (opos_add g GA) F p) as X. unfold vobs in X. rewrite VS in X. exact X. }
  assert (BJ : forall g : list (Z * pinfo) -> bool, g [] = false -> (forall d s, pos_ok d -> pos_ok s -> g (pos_add d s) = g d || g s) ->
     g (s_pos s) = existsb (fun c => g (flatten_sites (cold_calls thr c) (s_pos c))) nodes).
  { intros g G0 GA. assert (X : forall a b, own_ok a -> own_ok b -> opos g (own_add a b) = opos g a || opos g b) by (intros [[h t] q] [[h' t'] q'] (_ & _ & P) (_ & _ & P'); exact (GA q q' P P')).
    pose proof (BI' (opos g) G0 X F p) as Y. unfold vobs in Y. rewrite VS in Y. exact Y. }
  split; [|split].
  - specialize (HD F p). unfold vobs in HD. rewrite VS in HD. apply eqm_u64_mod; [exact (sym_ok_head s OS)|exact HD].
  - pose proof (ZI' ototal eq_refl ototal_add F p) as X. unfold vobs in X. rewrite VS in X. apply eqm_u64_mod; [exact (sym_ok_total s OS)|exact X].
  - intros l.
    assert (PO : forall i, aget Z.eqb l (s_pos s) = Some i -> pinfo_ok i) by (intros i; apply pos_ok_get; apply sym_ok_pos; exact OS).
    split; [|split; [|split]].
    + destruct (obs_spec s l []) as (<- & _). apply eqm_u64_mod; [unfold inst_obs; destruct (aget Z.eqb l (s_pos s)) as [i|]; [apply (PO i eq_refl)|apply u64_0]|].
      eapply eqm_trans; [apply ZJ; [reflexivity|apply inst_obs_add]|]. apply sumz_ext_eqm. intros c _. rewrite sites_inst. destruct (obs_spec c l []) as (-> & _). apply eqm_refl.
    + destruct (obs_spec s l []) as (_ & <- & _). apply eqm_u64_mod; [unfold count_obs; destruct (aget Z.eqb l (s_pos s)) as [i|]; [apply (PO i eq_refl)|apply u64_0]|].
      eapply eqm_trans; [apply ZJ; [reflexivity|apply count_obs_add]|]. apply sumz_ext_eqm. intros c _. rewrite sites_count, at_line_cold. destruct (obs_spec c l []) as (_ & -> & _). apply eqm_refl.
    + destruct (obs_spec s l []) as (_ & _ & _ & <- & _). rewrite (BJ (there_obs l) eq_refl (there_add l)). rewrite existsb_exists. split; intros (c & C1 & C2); exists c; (split; [exact C1|]);
        [apply sites_there in C2|apply sites_there]; rewrite at_line_cold in *; destruct (obs_spec c l []) as (_ & _ & _ & E & _); [rewrite E in C2|rewrite E]; exact C2.
    + intros t. split.
      * destruct (obs_spec s l t) as (_ & _ & <- & _). apply eqm_u64_mod.
        { unfold target_obs. destruct (aget Z.eqb l (s_pos s)) as [i|]; [|apply u64_0]. destruct (PO i eq_refl) as (_ & _ & [_ FT]). destruct (aget name_eqb t (p_targets i)) as [v|] eqn:V; [|apply u64_0]. apply aget_In in V; [|apply name_eqb_spec]. rewrite Forall_forall in FT. exact (FT _ V). }
        eapply eqm_trans; [apply ZJ; [reflexivity|apply target_obs_add]|]. apply sumz_ext_eqm. intros c _. eapply eqm_trans; [apply sites_target|]. rewrite at_line_cold. destruct (obs_spec c l t) as (_ & _ & -> & _). apply eqm_refl.
      * destruct (obs_spec s l t) as (_ & _ & _ & _ & <-). rewrite (BJ (tthere_obs l t) eq_refl (tthere_add l t)). rewrite existsb_exists. split; intros (c & C1 & C2); exists c; (split; [exact C1|]);
        [apply sites_tthere in C2|apply sites_tthere]; rewrite at_line_cold in *; destruct (obs_spec c l t) as (_ & _ & _ & _ & E); [rewrite E in C2|rewrite E]; exact C2.
Qed.
Print Assumptions C57_hybrid.
