(** Flattening, proofs part 4: one top-level function. *)
From Verif Require Import Base AssocFold SymbolModel SymbolSpec SymbolProofs AttribProofs AfdoModel
  AfdoReadProofs FlattenModel FlattenSpec FlattenPureProofs FlattenMapProofs FlattenNestProofs.

Lemma node_upd_app i p q f m : node_upd i (p ++ q) f m = node_upd i p (upd_at q f) m.
Proof. unfold node_upd. destruct (nth_error (sm_heap m) i); [|reflexivity]. rewrite upd_at_app. reflexivity. Qed.

Definition calls_of (m : smap) (j : nat) (q : path) : list (callsite * symbol) :=
  match node_get m j q with Some x => s_calls x | None => [] end.
(** a call target present in a body *)
Definition tgt_in (pos : list (Z * pinfo)) (l : Z) (t : name) : Prop :=
  exists i v, aget Z.eqb l pos = Some i /\ aget name_eqb t (p_targets i) = Some v.
Definition tle (x x' : symbol) : Prop := forall l t, tgt_in (s_pos x) l t -> tgt_in (s_pos x') l t.
Lemma tle_refl x : tle x x. Proof. intros l t H; exact H. Qed.
Lemma tle_pos x x' : s_pos x' = s_pos x -> tle x x'. Proof. intros E l t. rewrite E. auto. Qed.
Definition tgt_at (m : smap) (j : nat) (q : path) (key : callsite) : Prop :=
  (exists x, node_get m j q = Some x /\ tgt_in (s_pos x) (fst key) (snd key)) /\ In (snd key) (akeys (sm_names m)).

Lemma tle_merge a c : sym_ok a -> sym_ok c -> tle a (merge a c).
Proof.
  intros Oa Oc l t (i & v & E & T). rewrite merge_eq. cbn [s_pos].
  rewrite pos_add_foldin. pose proof (sym_ok_pos c Oc) as [Nc Fc].
  pose proof (aget_foldin Z.eqb pinfo_add pinfo0 Z.eqb_spec l (s_pos c) (s_pos a) Nc) as Q. unfold getd in Q.
  destruct (aget Z.eqb l (s_pos c)) as [i'|] eqn:E'; [|rewrite E in Q; exists i, v; auto]. rewrite E in Q.
  exists (pinfo_add i i'). cbn [pinfo_add p_targets]. rewrite targets_add_foldin.
  assert (Ni : NoDup (akeys (p_targets i'))).
  { apply aget_In in E'; [|apply Z.eqb_spec]. rewrite Forall_forall in Fc. destruct (Fc _ E') as (_ & _ & [X _]). exact X. }
  pose proof (aget_foldin name_eqb add64 0 name_eqb_spec t (p_targets i') (p_targets i) Ni) as P. unfold getd in P. rewrite T in P.
  destruct (aget name_eqb t (p_targets i')); eauto.
Qed.
Lemma tle_flatten_into l g h s : tle s (flatten_into l g h s).
Proof.
  destruct s as [h0 t0 ts pos cs]. intros l' t (i & v & E & T). cbn [flatten_into s_pos] in *. unfold tgt_in, flatten_pos.
  destruct (Z.eqb_spec l' l) as [->|Ne].
  - unfold pget. rewrite E. destruct (name_eqb_spec t g) as [->|Nt].
    + eexists. eexists. rewrite aget_aset_same by apply Z.eqb_spec. split; [reflexivity|]. cbn [p_targets]. apply aget_aset_same. apply name_eqb_spec.
    + eexists. exists v. rewrite aget_aset_same by apply Z.eqb_spec. split; [reflexivity|]. cbn [p_targets]. rewrite aget_aset_other by auto using name_eqb_spec. exact T.
  - exists i, v. rewrite aget_aset_other by auto using Z.eqb_spec. auto.
Qed.
Lemma tgt_flatten_into l g h s : tgt_in (s_pos (flatten_into l g h s)) l g.
Proof.
  destruct s as [h0 t0 ts pos cs]. cbn [flatten_into s_pos]. unfold tgt_in, flatten_pos.
  eexists. eexists. rewrite aget_aset_same by apply Z.eqb_spec. split; [reflexivity|]. cbn [p_targets].
  apply aget_aset_same. apply name_eqb_spec.
Qed.
Lemma is_prefix_app p r : is_prefix p (p ++ r) = true.
Proof. induction p as [|x p IH]; cbn [is_prefix app]; [reflexivity|]. destruct (callsite_eqb_spec x x); [exact IH|congruence]. Qed.
Lemma is_prefix_inv p : forall q, is_prefix p q = true -> exists r, q = p ++ r.
Proof.
  induction p as [|x p IH]; intros q E; [exists q; reflexivity|]. destruct q as [|y q]; [discriminate|]. cbn [is_prefix] in E.
  apply andb_prop in E. destruct E as [E1 E2]. destruct (callsite_eqb_spec x y) as [->|]; [|discriminate].
  destruct (IH q E2) as [r ->]. exists r. reflexivity.
Qed.
Lemma is_prefix_len p q : is_prefix p q = true -> (length p <= length q)%nat.
Proof. intros E. apply is_prefix_inv in E. destruct E as [r ->]. rewrite app_length. lia. Qed.

Section Top.
  Variable k : nat.
  Hypothesis kpos : (0 < k)%nat.
  Variables (obs : list (Z * pinfo) -> Z) (F : name).
  Hypothesis obs_nil : obs [] = 0.
  Hypothesis obs_add : forall d s, pos_ok d -> pos_ok s -> eqm (obs (pos_add d s)) (obs d + obs s).
  Variable R : name -> callsite -> Prop.
  Variable Nm : name -> Prop.
  Hypothesis quiet : forall key h pos, R F key -> obs (flatten_pos (fst key) (snd key) h pos) = obs pos.
  Hypothesis R_name : forall x key, R x key -> Nm (snd key).
  Notation tsum := (tree_sum obs F).
  Notation csm := (csum obs F).
  Notation msum := (map_sum obs F).

  Definition grows (m m' : smap) : Prop :=
    forall j q x, (length q < k)%nat -> node_get m j q = Some x -> exists x', node_get m' j q = Some x' /\ tle x x'.
  Lemma grows_refl m : grows m m. Proof. intros j q x _ N. exists x. split; [exact N|apply tle_refl]. Qed.
  Lemma grows_trans a b c : grows a b -> grows b c -> grows a c.
  Proof.
    intros G H j q x Lq N. destruct (G j q x Lq N) as (y & N' & T). destruct (H j q y Lq N') as (z & N'' & T').
    exists z. split; [exact N''|]. intros l t X. auto.
  Qed.
  Definition good (m m' : smap) : Prop := smap_ok m' /\ akm R m' /\ names_ext Nm m m' /\ grows m m'.
  Lemma good_refl m : smap_ok m -> akm R m -> good m m.
  Proof. intros W A. split; [exact W|]. split; [exact A|]. split; [apply names_ext_refl|apply grows_refl]. Qed.
  Lemma good_trans a b c : good a b -> good b c -> good a c.
  Proof.
    intros (A1 & A2 & A3 & A4) (B1 & B2 & B3 & B4). split; [exact B1|]. split; [exact B2|].
    split; [eapply names_ext_trans; eauto|eapply grows_trans; eauto].
  Qed.

  Lemma grows_tgt m m' j q key : good m m' -> (length q < k)%nat -> tgt_at m j q key -> tgt_at m' j q key.
  Proof.
    intros (_ & _ & (e & E & _) & G) Lq ((x & N & T) & I0). destruct (G j q x Lq N) as (x' & N' & T').
    split; [exists x'; auto|]. rewrite E. unfold akeys. rewrite map_app. apply in_or_app. left. exact I0.
  Qed.

  (** the flattened places *)
  Definition clr (U : nat -> path -> bool) (m m' : smap) : Prop :=
    forall j q, S (length q) = k ->
      if U j q then calls_of m' j q = [] /\ forall key c, In (key, c) (calls_of m j q) -> tgt_at m' j q key
      else calls_of m' j q = calls_of m j q.
  Definition frame (m m' : smap) : Prop := forall j q, S (length q) = k -> calls_of m' j q = calls_of m j q.
  Lemma clr_trans U V a b c : clr U a b -> clr V b c -> good b c -> clr (fun j q => U j q || V j q) a c.
  Proof.
    intros C D G j q Lq. specialize (C j q Lq). specialize (D j q Lq). destruct (U j q); cbn [orb].
    - destruct C as [C1 C2]. split.
      + destruct (V j q); [apply D|]. rewrite D. exact C1.
      + intros key x I0. apply (grows_tgt b c j q key G); [lia|]. eauto.
    - destruct (V j q); [|congruence]. rewrite C in D. exact D.
  Qed.
  Lemma clr_frame U a b c : clr U a b -> frame b c -> good b c -> clr U a c.
  Proof.
    intros C D G j q Lq. specialize (C j q Lq). specialize (D j q Lq). destruct (U j q); [|congruence].
    destruct C as [C1 C2]. split; [congruence|]. intros key x I0. apply (grows_tgt b c j q key G); [lia|]. eauto.
  Qed.
  Lemma clr_ext U V a b : (forall j q, S (length q) = k -> U j q = V j q) -> clr U a b -> clr V a b.
  Proof. intros E C j q Lq. rewrite <- E by exact Lq. apply C. exact Lq. Qed.

  (** *** Updating a node at the limit *)
  Lemma upd_good_lim m i p f x : S (length p) = k -> smap_ok m -> akm R m -> node_get m i p = Some x ->
    sym_ok (f x) -> tle x (f x) -> all_keys R (name_of (rootname m i) p) (f x) ->
    good m (node_upd i p f m) /\
    (forall j q, S (length q) = k -> (j, q) <> (i, p) -> calls_of (node_upd i p f m) j q = calls_of m j q).
  Proof.
    intros Lp W A N Of T Af. split.
    - split; [apply (ok_upd m i p f x); auto|]. split; [apply (akm_upd R m i p f x); auto|].
      split; [apply names_ext_eq, names_upd|].
      intros j q y Lq Nq. destruct (Nat.eq_dec j i) as [->|Ne].
      + destruct (is_prefix p q) eqn:E.
        * apply is_prefix_inv in E. destruct E as [r ->]. rewrite app_length in Lq. destruct r; [|cbn [length] in Lq; lia].
          rewrite app_nil_r in *. exists (f x). rewrite (get_upd_same i p f m x N). split; [reflexivity|].
          assert (x = y) as <- by congruence. exact T.
        * pose proof (get_upd_frame i p f m i q) as G. rewrite Nq in G.
          destruct (node_get (node_upd i p f m) i q) as [a|]; [|elim G; intros _ r ->; rewrite is_prefix_app in E; discriminate].
          exists a. split; [reflexivity|]. apply tle_pos. apply G. intros _ r ->. rewrite is_prefix_app in E. discriminate.
      + exists y. rewrite get_upd_other by exact Ne. split; [exact Nq|apply tle_refl].
    - intros j q Lq Ne. unfold calls_of. pose proof (get_upd_frame i p f m j q) as G.
      assert (H : j = i -> forall r, q <> p ++ r).
      { intros -> r ->. rewrite app_length in Lq. destruct r; [|cbn [length] in Lq; lia]. rewrite app_nil_r in Ne. congruence. }
      specialize (G H). destruct (node_get (node_upd i p f m) j q) as [a|], (node_get m j q) as [b|]; try (elim G; fail); [|reflexivity].
      destruct G as (_ & _ & _ & _ & G1 & G2). destruct (Nat.eq_dec j i) as [E|E]; [|rewrite (G2 E); reflexivity].
      rewrite (G1 E); [reflexivity|]. destruct (is_prefix q p) eqn:X; [|reflexivity]. exfalso.
      apply is_prefix_inv in X. destruct X as [r ->]. rewrite app_length in Lp. destruct r; [|cbn [length] in Lp; lia].
      apply (H E []). rewrite !app_nil_r. reflexivity.
  Qed.
  (** *** Updating the body of a node *)
  Lemma upd_good_body m i p f x : (S (length p) <= k)%nat -> smap_ok m -> akm R m -> node_get m i p = Some x ->
    sym_ok (f x) -> tle x (f x) -> s_calls (f x) = s_calls x ->
    good m (node_upd i p f m) /\ frame m (node_upd i p f m).
  Proof.
    intros Lp W A N Of T Ec.
    assert (U : forall r, r <> [] -> node_at (f x) r = node_at x r) by (intros [|y r] H; [congruence|]; cbn [node_at]; rewrite Ec; reflexivity).
    split.
    - split; [apply (ok_upd m i p f x); auto|]. split.
      { apply (akm_upd R m i p f x); auto. pose proof (akm_get R m i p x A N) as Ax. apply all_keys_iff. rewrite all_keys_iff in Ax.
        rewrite Ec. exact Ax. }
      split; [apply names_ext_eq, names_upd|].
      intros j q y Lq Nq. destruct (Nat.eq_dec j i) as [->|Ne].
      + destruct (is_prefix p q) eqn:E.
        * apply is_prefix_inv in E. destruct E as [r ->]. rewrite (get_upd_under i p f m x r N).
          rewrite (get_app m i p r x N) in Nq. destruct r as [|z r].
          -- exists (f x). split; [reflexivity|]. cbn [node_at] in Nq. assert (x = y) as <- by congruence. exact T.
          -- exists y. rewrite U by discriminate. split; [exact Nq|apply tle_refl].
        * pose proof (get_upd_frame i p f m i q) as G. rewrite Nq in G.
          destruct (node_get (node_upd i p f m) i q) as [a|]; [|elim G; intros _ r ->; rewrite is_prefix_app in E; discriminate].
          exists a. split; [reflexivity|]. apply tle_pos. apply G. intros _ r ->. rewrite is_prefix_app in E. discriminate.
      + exists y. rewrite get_upd_other by exact Ne. split; [exact Nq|apply tle_refl].
    - intros j q Lq. unfold calls_of. destruct (Nat.eq_dec j i) as [->|Ne]; [|rewrite get_upd_other by exact Ne; reflexivity].
      destruct (is_prefix p q) eqn:E.
      + apply is_prefix_inv in E. destruct E as [r ->]. rewrite (get_upd_under i p f m x r N), (get_app m i p r x N).
        destruct r as [|z r]; [cbn [node_at]; exact Ec|]. rewrite U by discriminate. reflexivity.
      + pose proof (get_upd_frame i p f m i q) as G.
        assert (H : i = i -> forall r, q <> p ++ r) by (intros _ r ->; rewrite is_prefix_app in E; discriminate).
        specialize (G H). destruct (node_get (node_upd i p f m) i q) as [a|], (node_get m i q) as [b|]; try (elim G; fail); [|reflexivity].
        destruct G as (_ & _ & _ & _ & G1 & _). rewrite (G1 eq_refl); [reflexivity|].
        destruct (is_prefix q p) eqn:X; [|reflexivity]. exfalso.
        apply is_prefix_inv in X. destruct X as [r ->]. rewrite app_length in Lp. destruct r; [|cbn [length] in Lp; lia].
        apply (H eq_refl []). rewrite !app_nil_r. reflexivity.
  Qed.

  (** *** Outlining *)
  Lemma low_calls c q : low k c -> S (length q) = k -> forall x, node_at c q = Some x -> s_calls x = [].
  Proof.
    intros L Lq x N. rewrite <- Lq in L. rewrite low_calls_at in L. specialize (L q eq_refl). unfold calls_at in L. rewrite N in L. exact L.
  Qed.
  Lemma merge_calls_nil a b : s_calls b = [] -> s_calls (merge a b) = s_calls a.
  Proof. intros E. rewrite merge_eq. cbn [s_calls]. rewrite E. reflexivity. Qed.
  Lemma outline1_good m g c : smap_ok m -> akm R m -> sym_ok c -> low k c -> all_keys R g c -> Nm g ->
    good m (outline1 g c m) /\ frame m (outline1 g c m).
  Proof.
    intros W A Oc Lc Ac Hg. split.
    - split; [apply outline1_ok; auto|]. split; [apply akm_outline1; auto|]. split; [apply names_ext_outline1; exact Hg|].
      intros j q x Lq N. unfold outline1, node_get in *. destruct (aget name_eqb g (sm_names m)) as [j0|] eqn:E.
      + rewrite nth_upd. destruct (Nat.eqb_spec j j0) as [->|]; [|exists x; split; [exact N|apply tle_refl]].
        destruct (nth_error (sm_heap m) j0) as [s|] eqn:Es; [|discriminate]. cbn [upd_at].
        assert (Os : sym_ok s) by eauto using ok_nth. rewrite node_at_merge by auto. rewrite N.
        destruct (node_at c q) as [b|] eqn:Eb; [|exists x; split; [reflexivity|apply tle_refl]].
        exists (merge x b). split; [reflexivity|]. apply tle_merge; eauto using node_at_ok.
      + cbn [sm_heap]. rewrite nth_error_app1; [exists x; split; [exact N|apply tle_refl]|].
        apply nth_error_Some. destruct (nth_error (sm_heap m) j); congruence.
    - intros j q Lq. unfold calls_of, outline1, node_get. destruct (aget name_eqb g (sm_names m)) as [j0|] eqn:E.
      + rewrite nth_upd. destruct (Nat.eqb_spec j j0) as [->|]; [|reflexivity].
        destruct (nth_error (sm_heap m) j0) as [s|] eqn:Es; [|reflexivity]. cbn [upd_at].
        assert (Os : sym_ok s) by eauto using ok_nth. rewrite node_at_merge by auto.
        destruct (node_at c q) as [b|] eqn:Eb; [|destruct (node_at s q); reflexivity].
        pose proof (low_calls c q Lc Lq b Eb) as X.
        destruct (node_at s q) as [a|]; rewrite merge_calls_nil by exact X; reflexivity.
      + cbn [sm_heap]. destruct (lt_dec j (length (sm_heap m))) as [Lj|Lj]; [rewrite nth_error_app1 by exact Lj; reflexivity|].
        replace (nth_error (sm_heap m) j) with (@None symbol) by (symmetry; apply nth_error_None; lia).
        destruct (nth_error (sm_heap m ++ [merge sym0 c]) j) as [s|] eqn:Es; [|reflexivity].
        rewrite nth_error_app2 in Es by lia. destruct (j - length (sm_heap m))%nat as [|d]; [|destruct d; discriminate].
        cbn [nth_error] in Es. assert (s = merge sym0 c) as -> by congruence.
        rewrite node_at_merge by auto using sym0_ok. destruct (node_at c q) as [b|] eqn:Eb.
        * pose proof (low_calls c q Lc Lq b Eb) as X.
          destruct q as [|y q]; cbn [node_at sym0 s_calls aget]; rewrite merge_calls_nil by exact X; reflexivity.
        * destruct q as [|y q]; cbn [node_at sym0 s_calls aget]; reflexivity.
  Qed.
  Lemma frame_trans a b c : frame a b -> frame b c -> frame a c.
  Proof. intros A B j q Lq. rewrite B, A by exact Lq. reflexivity. Qed.
  Lemma outline_good L : forall m, smap_ok m -> akm R m -> L_ok k R Nm L ->
    good m (outline L m) /\ frame m (outline L m) /\ eqm (msum (outline L m)) (msum m + Lsum obs F L).
  Proof.
    induction L as [|[g c] L IH]; intros m W A H; cbn [outline Lsum fst snd].
    - split; [apply good_refl; auto|]. split; [intros j q _; reflexivity|]. exists 0. ring.
    - apply Forall_cons_iff in H. destruct H as [(Oc & Lc & Ac & Hg) H]. cbn [fst snd] in *.
      destruct (outline1_good m g c W A Oc Lc Ac Hg) as [G1 F1]. destruct G1 as (W1 & A1 & E1 & T1).
      destruct (IH _ W1 A1 H) as (G2 & F2 & S2). split; [apply (good_trans m (outline1 g c m)); [repeat split; auto; apply W1|exact G2]|].
      split; [apply (frame_trans m (outline1 g c m)); auto|].
      destruct (map_sum_outline1 obs F obs_nil obs_add g c m W Oc) as [z Ez]. destruct S2 as [y Ey]. exists (z + y).
      rewrite Ey, Ez. ring.
  Qed.

  (** *** One callsite at the limit *)
  Lemma good_rootname m m' i p x : good m m' -> smap_ok m -> node_get m i p = Some x -> rootname m' i = rootname m i.
  Proof. intros (_ & _ & E & _) W N. eapply rootname_ext; eauto. eapply get_range; eauto. Qed.

  Lemma flatten_one_top fuel m i p s done key c rest : S (length p) = k -> smap_ok m -> akm R m -> node_get m i p = Some s ->
    s_calls s = done ++ (key, c) :: rest -> (height c <= fuel)%nat ->
    exists m' c2, flatten_one (FlattenImpl k fuel) i p key m = Ok m' /\ good m m' /\
      (forall j q, S (length q) = k -> (j, q) <> (i, p) -> calls_of m' j q = calls_of m j q) /\
      calls_of m' i p = done ++ (key, c2) :: rest /\ tgt_at m' i p key /\ eqm (msum m') (msum m + tsum (snd key) c2).
  Proof.
    intros Lp W A N Ec Hh. set (n := name_of (rootname m i) p).
    pose proof (ok_get m i p s W N) as Os. pose proof (akm_get R m i p s A N) as As. fold n in As.
    assert (Ak : R n key /\ all_keys R (snd key) c).
    { rewrite all_keys_iff in As. apply As. rewrite Ec. apply in_or_app. right. left. reflexivity. }
    destruct Ak as [Rk Ac].
    destruct (upd_key done key c rest s (fun x => x) Os Ec) as (_ & _ & _ & _ & Nc).
    (* 1: total *)
    set (m1 := node_upd i p (sub_total (s_total c)) m).
    destruct (upd_good_body m i p (sub_total (s_total c)) s ltac:(lia) W A N (sub_total_ok _ _ Os)
                (tle_pos s (sub_total (s_total c) s) ltac:(destruct s; reflexivity)) (calls_sub_total _ _)) as [G1 F1]. fold m1 in G1, F1.
    pose proof G1 as (W1 & A1 & X1 & T1).
    assert (N1 : node_get m1 i p = Some (sub_total (s_total c) s)) by (apply get_upd_same; exact N).
    assert (S1 : msum m1 = msum m).
    { unfold m1. rewrite (map_sum_upd obs F m i p _ s W N) by (apply sub_total_ok; exact Os). fold n. rewrite tsum_sub_total. ring. }
    set (s1 := sub_total (s_total c) s) in *.
    assert (Ec1 : s_calls s1 = done ++ (key, c) :: rest) by (unfold s1; rewrite calls_sub_total; exact Ec).
    assert (Os1 : sym_ok s1) by (apply sub_total_ok; exact Os).
    destruct (upd_key done key c rest s1 (fun x => x) Os1 Ec1) as (_ & _ & _ & _ & Nc1).
    (* 2: recursion *)
    destruct (nested k kpos obs F R Nm quiet R_name fuel 1 i (p ++ [key]) m1 c (snd key)) as (c' & L & Er & Rs); auto.
    { rewrite (get_app m1 i p [key] s1 N1). exact Nc1. }
    { rewrite app_length. cbn [length]. lia. }
    destruct Rs as (Oc' & Lc' & Ac' & HL & Sc).
    replace (S k - 1)%nat with k in Lc' by lia.
    destruct (outline_good L m1 W1 A1 HL) as (G2 & F2 & S2). set (mo := outline L m1) in *.
    pose proof G2 as (W2 & A2 & X2 & T2).
    destruct (T2 i p s1 ltac:(lia) N1) as (so & No & To).
    assert (Eo : s_calls so = done ++ (key, c) :: rest).
    { specialize (F2 i p Lp). unfold calls_of in F2. rewrite No, N1 in F2. rewrite F2. exact Ec1. }
    pose proof (ok_get mo i p so W2 No) as Oso.
    assert (Rn : rootname mo i = rootname m i).
    { rewrite (good_rootname m1 mo i p s1 G2 W1 N1). apply (good_rootname m m1 i p s G1 W N). }
    pose proof (akm_get R mo i p so A2 No) as Aso. rewrite Rn in Aso. fold n in Aso.
    (* 2'-4: the node *)
    set (c2 := EstimateHeadCount c').
    assert (O2 : sym_ok c2) by (apply estimate_ok; exact Oc').
    set (s2 := upd_at [key] (fun _ => c') so). assert (Os2 : sym_ok s2) by (apply (sym_ok_upd_key done key c rest); auto).
    destruct (upd_key done key c rest so (fun _ => c') Oso Eo) as (E2 & P2 & _). fold s2 in E2, P2.
    set (s3 := upd_at [key] EstimateHeadCount s2). assert (Os3 : sym_ok s3) by (apply (sym_ok_upd_key done key c' rest); auto).
    destruct (upd_key done key c' rest s2 EstimateHeadCount Os2 E2) as (E3 & P3 & _). fold s3 in E3, P3. fold c2 in E3.
    set (s4 := flatten_into (fst key) (snd key) (s_head c2) s3).
    assert (Os4 : sym_ok s4) by (apply flatten_into_ok; [exact Os3|apply sym_ok_head; exact O2]).
    assert (As3 : all_keys R n s3).
    { apply (all_keys_upd_key R n done key c' rest); auto; [|apply estimate_keys; exact Ac'].
      apply (all_keys_upd_key R n done key c rest); auto. }
    assert (As4 : all_keys R n s4) by (apply (all_keys_calls R n s3); [apply calls_flatten_into|exact As3]).
    assert (Tl : tle so s4).
    { intros l t X. apply tle_flatten_into. rewrite P3, P2. exact X. }
    set (m4 := node_upd i p (fun _ => s4) mo).
    destruct (upd_good_lim mo i p (fun _ => s4) so Lp W2 A2 No Os4 Tl) as [G4 F4]; [rewrite Rn; fold n; exact As4|]. fold m4 in G4, F4.
    pose proof G4 as (W4 & A4 & X4 & T4).
    assert (N4 : node_get m4 i p = Some s4) by (unfold m4; apply (get_upd_same i p (fun _ => s4) mo so); exact No).
    assert (Ec4 : s_calls s4 = done ++ (key, c2) :: rest) by (unfold s4; rewrite calls_flatten_into; exact E3).
    (* 5: outlining *)
    destruct (outline1_good m4 (snd key) c2 W4 A4 O2) as [G5 F5].
    { apply estimate_low. exact Lc'. }
    { apply estimate_keys; exact Ac'. }
    { apply (R_name n). exact Rk. }
    set (m5 := outline1 (snd key) c2 m4) in *. pose proof G5 as (W5 & A5 & X5 & T5).
    destruct (T5 i p s4 ltac:(lia) N4) as (s5 & N5 & T5').
    exists m5, c2. split.
    { unfold flatten_one. rewrite (get_app m i p [key] s N), Nc. fold m1. rewrite Er. cbn [obind].
      assert (Q1 : node_upd i (p ++ [key]) EstimateHeadCount (node_put i (p ++ [key]) c' mo) = node_put i p s3 mo).
      { rewrite !node_upd_app. rewrite <- (app_nil_r p) at 1. rewrite upd_upd_map. cbn [upd_at].
        apply (upd_ext_map i p _ _ mo so No). reflexivity. }
      fold mo. rewrite Q1.
      rewrite (get_upd_under i p (fun _ => s3) mo so [key] No).
      destruct (upd_key done key c2 rest s3 (fun x => x) Os3 E3) as (_ & _ & _ & _ & ->).
      assert (Q2 : node_upd i p (flatten_into (fst key) (snd key) (s_head c2)) (node_put i p s3 mo) = m4).
      { rewrite <- (app_nil_r p) at 1. rewrite upd_upd_map. reflexivity. }
      rewrite Q2. apply outline1_code. exact W4. }
    split.
    { apply (good_trans m m1); [exact G1|]. apply (good_trans m1 mo); [exact G2|]. apply (good_trans mo m4); [exact G4|exact G5]. }
    split; [intros j q Lq Ne; rewrite F5, F4, F2, F1 by auto; reflexivity|].
    split; [rewrite F5 by exact Lp; unfold calls_of; rewrite N4; exact Ec4|].
    split.
    { split; [exists s5; split; [exact N5|]; apply T5'; apply tgt_flatten_into|].
      unfold m5, outline1. destruct (aget name_eqb (snd key) (sm_names m4)) as [j|] eqn:Ej.
      - rewrite names_upd. apply aget_In in Ej; [|apply name_eqb_spec]. apply (in_map fst) in Ej. exact Ej.
      - cbn [sm_names]. unfold akeys. rewrite map_app. apply in_or_app. right. left. reflexivity. }
    destruct (map_sum_outline1 obs F obs_nil obs_add (snd key) c2 m4 W4 O2) as [z Ez]. fold m5 in Ez.
    assert (S4 : msum m4 = msum mo + (tsum (snd key) c2 - tsum (snd key) c)).
    { unfold m4. rewrite (map_sum_upd obs F mo i p (fun _ => s4) so W2 No Os4), Rn. fold n.
      unfold s4. rewrite (tsum_flatten_into obs F R quiet n key) by exact Rk.
      rewrite (tsum_clear obs F n s3), (tsum_clear obs F n so), E3, Eo.
      assert (Cl : tsum n (clear_calls s3) = tsum n (clear_calls so)).
      { unfold s3. rewrite (clear_upd_key obs F n done key c' rest) by auto. apply (clear_upd_key obs F n done key c rest); auto. }
      rewrite Cl, !csm_mid. ring. }
    assert (Tc : tsum (snd key) c2 = tsum (snd key) c') by apply estimate_tsum.
    destruct S2 as [y Ey], Sc as [w Ew]. rewrite S4, Ey, S1 in Ez. exists (z + y + w). rewrite Ez, Tc.
    assert (Q : tsum (snd key) c' = tsum (snd key) c + w * w64 - Lsum obs F L) by (rewrite <- Ew; ring).
    rewrite Q. ring.
  Qed.

  Lemma flatten_loop_top fuel : forall rest done m i p s, S (length p) = k -> smap_ok m -> akm R m -> node_get m i p = Some s ->
    s_calls s = done ++ rest -> (forall key c, In (key, c) rest -> (height c <= fuel)%nat) ->
    exists m' rest', flatten_loop (FlattenImpl k fuel) i p (akeys rest) m = Ok m' /\ good m m' /\
      (forall j q, S (length q) = k -> (j, q) <> (i, p) -> calls_of m' j q = calls_of m j q) /\
      calls_of m' i p = done ++ rest' /\ (forall key c, In (key, c) rest -> tgt_at m' i p key) /\
      eqm (msum m') (msum m + csm rest').
  Proof.
    induction rest as [|[key c] rest IH]; intros done m i p s Lp W A N Ec Hh.
    { exists m, []. cbn [akeys map flatten_loop]. split; [reflexivity|]. split; [apply good_refl; auto|]. split; [reflexivity|].
      split; [unfold calls_of; rewrite N; exact Ec|]. split; [intros ? ? []|]. exists 0. unfold csum. cbn [fold_right]. ring. }
    destruct (flatten_one_top fuel m i p s done key c rest Lp W A N Ec (Hh key c (or_introl eq_refl)))
      as (m1 & c2 & E1 & G1 & F1 & C1 & T1 & S1).
    pose proof G1 as (W1 & A1 & X1 & R1). destruct (R1 i p s ltac:(lia) N) as (s1 & N1 & _).
    unfold calls_of in C1. rewrite N1 in C1.
    destruct (IH (done ++ [(key, c2)]) m1 i p s1 Lp W1 A1 N1) as (m2 & rest' & E2 & G2 & F2 & C2 & T2 & S2).
    { rewrite <- app_assoc. exact C1. }
    { intros k0 c0 I0. apply (Hh k0). right; exact I0. }
    exists m2, ((key, c2) :: rest'). split.
    { cbn [akeys map fst flatten_loop]. rewrite E1. cbn [obind]. exact E2. }
    split; [apply (good_trans m m1); auto|]. split; [intros j q Lq Ne; rewrite F2, F1 by auto; reflexivity|].
    split; [rewrite C2, <- app_assoc; reflexivity|].
    split.
    { intros k0 c0 [E|I0]; [|eapply T2; exact I0]. assert (key = k0) as <- by congruence.
      apply (grows_tgt m1); [exact G2|lia|exact T1]. }
    destruct S1 as [z Ez], S2 as [y Ey]. exists (z + y). rewrite Ey, Ez.
    change (csm ((key, c2) :: rest')) with (tsum (snd key) c2 + csm rest'). ring.
  Qed.

  Definition under (i : nat) (p : path) (j : nat) (q : path) : bool := Nat.eqb j i && is_prefix p q.
  Definition hbound (H : nat) (i : nat) (m : smap) : Prop :=
    forall q key c, S (length q) = k -> In (key, c) (calls_of m i q) -> (height c <= H)%nat.
  Lemma hbound_clr U H i m m' : clr U m m' -> hbound H i m -> hbound H i m'.
  Proof.
    intros C B q key c Lq I0. specialize (C i q Lq). destruct (U i q).
    - destruct C as [C _]. rewrite C in I0. destruct I0.
    - rewrite C in I0. apply (B q key c Lq I0).
  Qed.

  Theorem top_flatten H : forall fuel depth i p m s, smap_ok m -> akm R m -> node_get m i p = Some s ->
    depth = S (length p) -> (depth <= k)%nat -> hbound H i m -> (k - depth + 1 + H <= fuel)%nat ->
    exists d m', FlattenImpl k fuel depth i p m = Ok (d, m') /\ good m m' /\ clr (under i p) m m' /\ eqm (msum m') (msum m).
  Proof.
    induction fuel as [|fuel IH]; intros depth i p m s W A N Dp Dk HB Hf; [lia|].
    pose proof (ok_get m i p s W N) as Os.
    cbn [FlattenImpl]. rewrite N. destruct (Nat.eqb_spec depth k) as [Ek|Ne].
    - assert (Lp : S (length p) = k) by congruence.
      destruct (flatten_loop_top fuel (s_calls s) [] m i p s Lp W A N eq_refl) as (m1 & rest' & E1 & G1 & F1 & C1 & T1 & S1).
      { intros key c I0. specialize (HB p key c Lp). unfold calls_of in HB. rewrite N in HB. specialize (HB I0). lia. }
      rewrite E1. cbn [obind]. pose proof G1 as (W1 & A1 & X1 & R1). destruct (R1 i p s ltac:(lia) N) as (s1 & N1 & _).
      pose proof (ok_get m1 i p s1 W1 N1) as Os1.
      destruct (upd_good_lim m1 i p clear_calls s1 Lp W1 A1 N1 (clear_calls_ok _ Os1)
                  (tle_pos s1 (clear_calls s1) ltac:(destruct s1; reflexivity))) as [G2 F2].
      { apply all_keys_iff. destruct s1. intros ? ? []. }
      set (m2 := node_upd i p clear_calls m1) in *.
      assert (N2 : node_get m2 i p = Some (clear_calls s1)) by (apply get_upd_same; exact N1).
      rewrite N2. eexists. exists m2. split; [reflexivity|]. split; [apply (good_trans m m1); auto|]. split.
      + intros j q Lq. destruct (under i p j q) eqn:E.
        * unfold under in E. apply andb_prop in E. destruct E as [Ej Eq]. apply Nat.eqb_eq in Ej. subst j.
          apply is_prefix_inv in Eq. destruct Eq as [r ->]. rewrite app_length in Lq. destruct r; [|cbn [length] in Lq; lia].
          rewrite app_nil_r in *. unfold calls_of at 1. rewrite N2. split; [destruct s1; reflexivity|].
          intros key c I0. apply (grows_tgt m1); [exact G2|lia|]. unfold calls_of in I0. rewrite N in I0. eapply T1; exact I0.
        * assert (Nq : (j, q) <> (i, p)).
          { intros X. assert (j = i /\ q = p) as [-> ->] by (split; congruence). unfold under in E. rewrite Nat.eqb_refl in E.
            pose proof (is_prefix_app p []) as Y. rewrite app_nil_r in Y. rewrite Y in E. discriminate. }
          rewrite F2, F1 by auto. reflexivity.
      + unfold m2. rewrite (map_sum_upd obs F m1 i p _ s1 W1 N1) by (apply clear_calls_ok; exact Os1).
        rewrite (tsum_clear obs F _ s1). cbn [app] in C1. unfold calls_of in C1. rewrite N1 in C1. rewrite C1.
        destruct S1 as [z Ez]. exists z. rewrite Ez. ring.
    - assert (G : forall keys m s, smap_ok m -> akm R m -> node_get m i p = Some s -> hbound H i m ->
        (forall key, In key keys -> exists x, node_get m i (p ++ [key]) = Some x) ->
        exists m', descend_loop (FlattenImpl k fuel) depth i p keys m = Ok m' /\ good m m' /\
          clr (fun j q => existsb (fun key => under i (p ++ [key]) j q) keys) m m' /\ eqm (msum m') (msum m)).
      { clear s m W A N Os HB. induction keys as [|key keys IHk]; intros m s W A N HB Hk.
        { exists m. split; [reflexivity|]. split; [apply good_refl; auto|]. split; [intros j q _; reflexivity|apply eqm_refl]. }
        destruct (Hk key (or_introl eq_refl)) as [x Nx].
        destruct (IH (S depth) i (p ++ [key]) m x W A Nx) as (d & m1 & E1 & G1 & C1 & S1); auto.
        { rewrite app_length. cbn [length]. lia. }
        { lia. }
        { lia. }
        pose proof G1 as (W1 & A1 & X1 & R1). destruct (R1 i p s ltac:(lia) N) as (s1 & N1 & _).
        pose proof (ok_get m1 i p s1 W1 N1) as Os1.
        destruct (upd_good_body m1 i p (add_diff d) s1 ltac:(lia) W1 A1 N1 (add_diff_ok _ _ Os1)
                    (tle_pos s1 (add_diff d s1) ltac:(destruct s1; reflexivity)) (calls_add_diff _ _)) as [G2 F2].
        set (m2 := node_upd i p (add_diff d) m1) in *. pose proof G2 as (W2 & A2 & X2 & R2).
        assert (N2 : node_get m2 i p = Some (add_diff d s1)) by (apply get_upd_same; exact N1).
        assert (C2 : clr (under i (p ++ [key])) m m2) by (apply (clr_frame _ m m1); auto).
        destruct (IHk m2 (add_diff d s1) W2 A2 N2) as (m3 & E3 & G3 & C3 & S3).
        { eapply hbound_clr; [exact C2|exact HB]. }
        { intros k0 I0. destruct (Hk k0 (or_intror I0)) as [y Ny].
          assert (Lk : (length (p ++ [k0]) < k)%nat) by (rewrite app_length; cbn [length]; lia).
          destruct (R1 i _ y Lk Ny) as (y1 & Ny1 & _). destruct (R2 i _ y1 Lk Ny1) as (y2 & Ny2 & _). eauto. }
        exists m3. split; [cbn [descend_loop]; rewrite E1; cbn [obind]; fold m2; exact E3|].
        split; [apply (good_trans m m1); [exact G1|]; apply (good_trans m1 m2); [exact G2|exact G3]|].
        split; [cbn [existsb]; apply (clr_trans _ _ m m2); auto|].
        apply (eqm_trans _ (msum m2)); [exact S3|]. unfold m2.
        rewrite (map_sum_upd obs F m1 i p _ s1 W1 N1) by (apply add_diff_ok; exact Os1). rewrite tsum_add_diff.
        destruct S1 as [z Ez]. exists z. rewrite Ez. ring. }
      destruct (G (akeys (s_calls s)) m s W A N HB) as (m1 & E1 & G1 & C1 & S1).
      { intros key I0. rewrite (get_app m i p [key] s N). cbn [node_at].
        destruct (aget callsite_eqb key (s_calls s)) as [c|] eqn:E; [eauto|].
        exfalso. apply (aget_None_iff callsite_eqb callsite_eqb_spec) in E. contradiction. }
      rewrite E1. cbn [obind]. pose proof G1 as (W1 & A1 & X1 & R1). destruct (R1 i p s ltac:(lia) N) as (s1 & N1 & _).
      rewrite N1. eexists. exists m1. split; [reflexivity|]. split; [exact G1|]. split; [|exact S1].
      intros j q Lq. specialize (C1 j q Lq). cbv beta in C1.
      destruct (existsb (fun key => under i (p ++ [key]) j q) (akeys (s_calls s))) eqn:E.
      + apply existsb_exists in E. destruct E as (key & Ik & E). unfold under in E. apply andb_prop in E. destruct E as [Ej Eq].
        apply is_prefix_inv in Eq. destruct Eq as [r ->]. unfold under. rewrite Ej. rewrite <- app_assoc, is_prefix_app. cbn [andb].
        rewrite <- app_assoc in C1. exact C1.
      + destruct (under i p j q) eqn:U; [|exact C1]. rewrite C1. unfold under in U. apply andb_prop in U. destruct U as [Ej Eq].
        apply Nat.eqb_eq in Ej. subst j. apply is_prefix_inv in Eq. destruct Eq as [r ->].
        destruct r as [|key r]; [rewrite app_nil_r in Lq; lia|].
        assert (Z : calls_of m i (p ++ key :: r) = []).
        { unfold calls_of. rewrite (get_app m i p (key :: r) s N). cbn [node_at].
          destruct (aget callsite_eqb key (s_calls s)) as [c|] eqn:Ea; [|reflexivity]. exfalso.
          assert (X : existsb (fun key0 => under i (p ++ [key0]) i (p ++ key :: r)) (akeys (s_calls s)) = true).
          { apply existsb_exists. exists key. split.
            - apply aget_In in Ea; [|apply callsite_eqb_spec]. apply (in_map fst) in Ea. exact Ea.
            - unfold under. rewrite Nat.eqb_refl. cbn [andb]. change (key :: r) with ([key] ++ r). rewrite app_assoc. apply is_prefix_app. }
          congruence. }
        rewrite Z. split; [reflexivity|]. intros ? ? [].
  Qed.
End Top.
