(** Proofs about the clusters. *)
From Verif Require Import Base ISort ForcedModel ChainModel ChainSpec ChainAsmProofs ChainBuildModel ClusterModel ClusterSpec.

Lemma inb_In l n : inb l n = true <-> In n l.
Proof. unfold inb. rewrite existsb_exists. split; [intros [x [H Q]]; apply Z.eqb_eq in Q; congruence|intros H; exists n; split; [exact H|apply Z.eqb_refl]]. Qed.
Lemma inb_false l n : inb l n = false <-> ~ In n l.
Proof. rewrite <- inb_In. destruct (inb l n); split; congruence. Qed.
Lemma sumf_nonneg {A} (f : A -> Z) l : (forall x, In x l -> 0 <= f x) -> 0 <= sumf f l.
Proof. induction l as [|x l IH]; intros H; [rewrite sumf_nil; lia|]. rewrite sumf_cons. pose proof (H x (or_introl eq_refl)). assert (0 <= sumf f l) by (apply IH; intros; apply H; right; assumption). lia. Qed.
Lemma sumf_le_incl {A} (f : A -> Z) l k r : Permutation l (k ++ r) -> (forall x, In x l -> 0 <= f x) -> sumf f k <= sumf f l.
Proof.
  intros P H. rewrite (sumf_perm f _ _ P), sumf_app. assert (0 <= sumf f r); [|lia]. apply sumf_nonneg. intros x Hx. apply H.
  apply (Permutation_in _ (Permutation_sym P)). apply in_app_iff. right. exact Hx.
Qed.
Lemma NoDup_map_inj {A} (f : A -> Z) l x y : NoDup (map f l) -> In x l -> In y l -> f x = f y -> x = y.
Proof.
  induction l as [|z l IH]; intros N; [intros []|]. cbn [map] in N. inversion N as [|? ? N1 N2]; subst.
  intros [<-|Hx] [<-|Hy] E; auto; exfalso; apply N1; [rewrite E|rewrite <- E]; apply in_map; assumption.
Qed.
Lemma NoDup_flat_map_inj {A} (f : A -> list Z) l x y n : NoDup (flat_map f l) -> In x l -> In y l -> In n (f x) -> In n (f y) -> x = y.
Proof.
  induction l as [|z l IH]; cbn [flat_map]; intros N; [intros []|]. apply NoDup_app_inv in N as [_ [N2 D]].
  intros [<-|Hx] [<-|Hy] Hn Hm; auto; exfalso.
  - apply (D n Hn). apply in_flat_map. exists y. auto.
  - apply (D n Hm). apply in_flat_map. exists x. auto.
Qed.
Lemma find_id {A} (f : A -> Z) l x : NoDup (map f l) -> In x l -> find (fun y => f y =? f x) l = Some x.
Proof.
  induction l as [|z l IH]; intros N; [intros []|]. cbn [map find] in *. inversion N as [|? ? N1 N2]; subst. intros [<-|Hx].
  - rewrite Z.eqb_refl. reflexivity.
  - destruct (Z.eqb_spec (f z) (f x)) as [E|E]; [exfalso; apply N1; rewrite E; apply in_map; exact Hx|apply IH; assumption].
Qed.
Lemma two_perm (f : cluster -> Z) ks a b : NoDup (map f ks) -> In a ks -> In b ks -> f a <> f b -> exists R, Permutation ks (a :: b :: R).
Proof.
  intros N Ha Hb D. destruct (in_split _ _ Ha) as [l1 [l2 ->]]. assert (P : Permutation (l1 ++ a :: l2) (a :: l1 ++ l2)) by (apply Permutation_sym, Permutation_middle).
  apply (Permutation_in _ P) in Hb. destruct Hb as [<-|Hb]; [congruence|]. destruct (in_split _ _ Hb) as [m1 [m2 E]]. exists (m1 ++ m2).
  eapply perm_trans; [exact P|]. constructor. rewrite E. apply Permutation_sym, Permutation_middle.
Qed.

Record cinv (C : cparams) (hs : list kchain) (st : cstate) : Prop := {
  ci_perm : Permutation (flat_map k_chains (t_clusters st)) hs;
  ci_ids : NoDup (map k_id (t_clusters st));
  ci_k : forall k, In k (t_clusters st) ->
    k_chains k <> [] /\ k_id k = cname (k_chains k) /\ k_size k = csize (k_chains k) /\ k_freq k = cfreq (k_chains k);
  ci_of : forall k h, In k (t_clusters st) -> In h (k_chains k) -> t_of st (h_id h) = Some (k_id k);
  ci_lim : forall k, In k (t_clusters st) -> length (k_chains k) = 1%nat \/ k_size k <= 2 * q_thr C }.

Section Run.
  Context (C : cparams) (hs : list kchain) (CO : chains_ok C hs).
  Let P := q_prog C.
  Definition layers (st : cstate) : list (list kchain) := map k_chains (t_clusters st).

  Lemma chain_of_ok n : In n (blocks hs) -> exists h, In h hs /\ In n (h_nodes h) /\ chain_of hs n = Some (h_id h).
  Proof.
    intros H. unfold chain_of. destruct (find _ hs) as [h|] eqn:F.
    - apply find_some in F as [F1 F2]. exists h. split; [exact F1|]. split; [apply inb_In; exact F2|reflexivity].
    - exfalso. unfold blocks in H. apply in_flat_map in H as [h [H1 H2]]. pose proof (find_none _ _ F h H1) as X. cbv beta in X. apply inb_In in H2. unfold inb in H2. congruence.
  Qed.
  Lemma chain_of_iff n h : In h hs -> In n (h_nodes h) -> chain_of hs n = Some (h_id h).
  Proof.
    intros H1 H2. destruct (chain_of_ok n) as [h' [A [B Q]]]; [unfold blocks; apply in_flat_map; exists h; auto|].
    rewrite Q. f_equal. f_equal. eapply NoDup_flat_map_inj; [apply (co_nodes _ _ CO)|exact A|exact H1|exact B|exact H2].
  Qed.
  Context (st : cstate) (V : cinv C hs st).
  Lemma in_hs k h : In k (t_clusters st) -> In h (k_chains k) -> In h hs.
  Proof. intros H1 H2. apply (Permutation_in _ (ci_perm _ _ _ V)). apply in_flat_map. exists k. auto. Qed.
  Lemma cluster_of_ok k h : In k (t_clusters st) -> In h (k_chains k) -> cluster_of st (h_id h) = Some k.
  Proof. intros H1 H2. unfold cluster_of. rewrite (ci_of _ _ _ V k h H1 H2). apply find_id; [apply (ci_ids _ _ _ V)|exact H1]. Qed.
  Lemma blocks_nodup : NoDup (flat_map (fun k => blocks (k_chains k)) (t_clusters st)).
  Proof.
    assert (E : flat_map (fun k => blocks (k_chains k)) (t_clusters st) = blocks (flat_map k_chains (t_clusters st))).
    { unfold blocks. induction (t_clusters st) as [|k l IH]; [reflexivity|]. cbn [flat_map]. rewrite flat_map_app, IH. reflexivity. }
    rewrite E. eapply Permutation_NoDup; [apply Permutation_sym, Permutation_flat_map, (ci_perm _ _ _ V)|apply (co_nodes _ _ CO)].
  Qed.
  Lemma same_cluster k k' n : In k (t_clusters st) -> In k' (t_clusters st) -> In n (blocks (k_chains k)) -> In n (blocks (k_chains k')) -> k = k'.
  Proof. intros. eapply (NoDup_flat_map_inj (fun k => blocks (k_chains k))); eauto using blocks_nodup. Qed.
  Lemma ids_inj k k' : In k (t_clusters st) -> In k' (t_clusters st) -> k_id k = k_id k' -> k = k'.
  Proof. apply NoDup_map_inj. apply (ci_ids _ _ _ V). Qed.
  Lemma two_sums k k' : In k (t_clusters st) -> In k' (t_clusters st) -> k_id k <> k_id k' ->
    0 <= k_size k /\ 0 <= k_size k' /\ k_size k + k_size k' < 2 ^ 31 /\ 0 <= k_freq k /\ 0 <= k_freq k' /\ k_freq k + k_freq k' < 2 ^ 31.
  Proof.
    intros H H' D. destruct (two_perm k_id _ k k' (ci_ids _ _ _ V) H H' D) as [R PR].
    assert (PH : Permutation hs ((k_chains k ++ k_chains k') ++ flat_map k_chains R)).
    { eapply perm_trans; [apply Permutation_sym, (ci_perm _ _ _ V)|]. eapply perm_trans; [apply Permutation_flat_map; exact PR|]. cbn [flat_map]. rewrite app_assoc. apply Permutation_refl. }
    destruct (ci_k _ _ _ V k H) as [_ [_ [-> ->]]]. destruct (ci_k _ _ _ V k' H') as [_ [_ [-> ->]]]. unfold csize, cfreq.
    pose proof (sumf_le_incl h_size _ _ _ PH (co_size _ _ CO)) as S1. pose proof (sumf_le_incl h_freq _ _ _ PH (co_freq _ _ CO)) as S2. rewrite !sumf_app in S1, S2.
    pose proof (co_sizes _ _ CO) as B1. pose proof (co_freqs _ _ CO) as B2. unfold csize, cfreq in B1, B2.
    assert (NN : forall k0, In k0 (t_clusters st) -> 0 <= sumf h_size (k_chains k0) /\ 0 <= sumf h_freq (k_chains k0)).
    { intros k0 H0. split; apply sumf_nonneg; intros h Hh; [apply (co_size _ _ CO)|apply (co_freq _ _ CO)]; eapply in_hs; eauto. }
    destruct (NN k H), (NN k' H'). lia.
  Qed.

  (** * the edges into a chain *)
  Context (h : kchain) (k : cluster) (Hk : In k (t_clusters st)) (Hh : In h (k_chains k)) (LK : k_size k <= q_thr C).
  Definition fed (es : list cedge) (a : list kchain) : Z := sumf ce_weight (filter (fun e => strong P e && inb (blocks a) (ce_src e)) es).
  Definition mf (k' : cluster) : Prop := may_follow (q_thr C) (k_chains k') (k_chains k).
  Definition wget (w : list (Z * Z)) (j : Z) : Z := match find (fun p => fst p =? j) w with Some p => snd p | None => 0 end.
  Record winv (es : list cedge) (w : list (Z * Z)) : Prop := {
    wi_keys : NoDup (map fst w);
    wi_in : forall j x, In (j, x) w -> 0 < x /\ exists k', In k' (t_clusters st) /\ k_id k' = j /\ j <> k_id k /\ mf k';
    wi_get : forall k', In k' (t_clusters st) -> k_id k' <> k_id k -> mf k' -> wget w (k_id k') = fed es (k_chains k') }.

  Lemma wget_add w j i x : wget (add_weight w i x) j = if j =? i then wget w j + x else wget w j.
  Proof.
    unfold wget. induction w as [|[a y] w IH]; cbn [add_weight find fst snd].
    - destruct (Z.eqb_spec i j) as [->|N]; [rewrite Z.eqb_refl; reflexivity|]. destruct (Z.eqb_spec j i); [congruence|reflexivity].
    - destruct (Z.eqb_spec a i) as [->|N]; cbn [find fst snd].
      + destruct (Z.eqb_spec i j) as [->|N]; [rewrite Z.eqb_refl; reflexivity|]. destruct (Z.eqb_spec j i); [congruence|reflexivity].
      + destruct (Z.eqb_spec a j) as [->|N2]; [destruct (Z.eqb_spec j i); [congruence|reflexivity]|exact IH].
  Qed.
  Lemma add_keys w i x j : In j (map fst (add_weight w i x)) <-> j = i \/ In j (map fst w).
  Proof.
    induction w as [|[a y] w IH]; cbn [add_weight map fst In]; [intuition congruence|].
    destruct (Z.eqb_spec a i) as [->|N]; cbn [map fst In]; [intuition congruence|]. rewrite IH. intuition congruence.
  Qed.
  Lemma add_nodup w i x : NoDup (map fst w) -> NoDup (map fst (add_weight w i x)).
  Proof.
    induction w as [|[a y] w IH]; cbn [add_weight map fst]; intros N; [repeat constructor; intros []|].
    destruct (Z.eqb_spec a i) as [->|D]; cbn [map fst]; [exact N|]. inversion N; subst. constructor; [rewrite add_keys; intros [?|?]; [congruence|contradiction]|auto].
  Qed.
  Lemma add_In w i x j y : In (j, y) (add_weight w i x) -> In (j, y) w \/ (j = i /\ (y = x \/ exists z, In (i, z) w /\ y = z + x)).
  Proof.
    induction w as [|[a b] w IH]; cbn [add_weight In].
    - intros [E|[]]. injection E as <- <-. right. auto.
    - destruct (Z.eqb_spec a i) as [->|D]; cbn [In].
      + intros [E|H]; [injection E as <- <-; right; split; [reflexivity|]; right; exists b; auto|auto].
      + intros [E|H]; [auto|]. destruct (IH H) as [H1|[-> [->|[z [H1 ->]]]]]; [auto|right; auto|right; split; [reflexivity|]; right; exists z; auto].
  Qed.
  Lemma fed_snoc es e a : fed (es ++ [e]) a = fed es a + (if strong P e && inb (blocks a) (ce_src e) then ce_weight e else 0).
  Proof. unfold fed. rewrite filter_app, sumf_app. cbn [filter]. destruct (_ && _); [rewrite sumf_cons, sumf_nil|rewrite sumf_nil]; lia. Qed.

  Lemma not_strong_step es w e : winv es w -> (forall k', In k' (t_clusters st) -> k_id k' <> k_id k -> mf k' -> strong P e = false \/ ~ In (ce_src e) (blocks (k_chains k'))) ->
    winv (es ++ [e]) w.
  Proof.
    intros W H. split; [apply (wi_keys _ _ W)|apply (wi_in _ _ W)|]. intros k' A B M. rewrite (wi_get _ _ W k' A B M), fed_snoc.
    destruct (H k' A B M) as [-> | X]; [cbn [andb]; lia|]. apply inb_false in X. rewrite X, andb_false_r. lia.
  Qed.
  Lemma inspect_step es w e : winv es w -> (exists n, In n (h_nodes h) /\ In e (p_ins P n)) ->
    exists w', inspect_edge C hs st (h_id h) k w e = Ok w' /\ winv (es ++ [e]) w'.
  Proof.
    intros W [n [Hn He]]. assert (Hhs : In h hs) by (eapply in_hs; eauto).
    assert (Hb : In n (blocks hs)) by (unfold blocks; apply in_flat_map; exists h; auto).
    destruct (co_weight _ _ CO n e Hb He) as [W0 W1]. pose proof (co_src _ _ CO n e Hb He) as SRC. fold P in SRC. unfold inspect_edge. fold P.
    destruct (is_return e) eqn:RT; [eexists; split; [reflexivity|]; apply not_strong_step; [exact W|]; intros; left; unfold strong, counts, is_return in *; destruct (ce_kind e); try discriminate; rewrite !andb_false_r; reflexivity|].
    destruct (p_inter_section P e) eqn:IS; [eexists; split; [reflexivity|]; apply not_strong_step; [exact W|]; intros; left; unfold strong, counts; rewrite IS; rewrite andb_false_r; reflexivity|].
    destruct (Z.eqb_spec (ce_weight e) 0) as [Z0|Z0]; [eexists; split; [reflexivity|]; apply not_strong_step; [exact W|]; intros; left; unfold strong, counts; rewrite Z0; reflexivity|].
    assert (I0 : is_int (ce_weight e * 10) = true) by (unfold is_int; change (2 ^ 31) with 2147483648 in W1; lia). rewrite I0. cbn [negb].
    destruct (Z.ltb_spec (ce_weight e * 10) (frequency P (ce_sink e))) as [F|F]; [eexists; split; [reflexivity|]; apply not_strong_step; [exact W|]; intros; left; unfold strong; apply andb_false_iff; right; lia|].
    assert (CT : counts P e = true) by (unfold counts; rewrite IS; apply Z.eqb_neq in Z0; rewrite Z0; unfold is_return in RT; destruct (ce_kind e); try discriminate; reflexivity).
    assert (ST : strong P e = true) by (unfold strong; rewrite CT; cbn [andb]; lia).
    specialize (SRC CT). destruct (chain_of_ok _ SRC) as [h' [A1 [A2 ->]]].
    assert (HK' : exists ks, In ks (t_clusters st) /\ In h' (k_chains ks)).
    { apply (Permutation_in _ (Permutation_sym (ci_perm _ _ _ V))) in A1. apply in_flat_map in A1. exact A1. }
    destruct HK' as [ks [K1 K2]]. assert (SB : In (ce_src e) (blocks (k_chains ks))) by (unfold blocks; apply in_flat_map; exists h'; auto).
    assert (OTH : forall k', In k' (t_clusters st) -> k' <> ks -> strong P e = false \/ ~ In (ce_src e) (blocks (k_chains k'))).
    { intros k' B1 B2. right. intros X. apply B2. eapply same_cluster; eauto. }
    destruct (Z.eqb_spec (h_id h') (h_id h)) as [E1|E1].
    { assert (h' = h) by (eapply (NoDup_map_inj h_id); [apply (co_ids _ _ CO)|exact A1|exact Hhs|exact E1]). subst h'.
      assert (ks = k) by (pose proof (cluster_of_ok _ _ K1 K2) as X1; pose proof (cluster_of_ok _ _ Hk Hh) as X2; congruence). subst ks.
      eexists; split; [reflexivity|]. apply not_strong_step; [exact W|]. intros k' B1 B2 _. apply OTH; [exact B1|congruence]. }
    rewrite (cluster_of_ok _ _ K1 K2). destruct (Z.eqb_spec (k_id ks) (k_id k)) as [E2|E2].
    { eexists; split; [reflexivity|]. apply not_strong_step; [exact W|]. intros k' B1 B2 _. apply OTH; [exact B1|congruence]. }
    destruct (ci_k _ _ _ V ks K1) as [_ [_ [QS QF]]]. destruct (ci_k _ _ _ V k Hk) as [_ [_ [QS' QF']]].
    assert (NM : ~ mf ks -> forall k', In k' (t_clusters st) -> k_id k' <> k_id k -> mf k' -> strong P e = false \/ ~ In (ce_src e) (blocks (k_chains k'))).
    { intros N k' B1 B2 M. apply OTH; [exact B1|]. intros ->. contradiction. }
    destruct (k_size ks >? q_thr C) eqn:BIG.
    { eexists; split; [reflexivity|]. apply not_strong_step; [exact W|]. apply NM. intros [X _]. lia. }
    destruct (two_sums k ks Hk K1 ltac:(congruence)) as [S1 [S2 [S3 [F1 [F2 F3]]]]]. pose proof (co_thr _ _ CO) as TH.
    change (2 ^ 31) with 2147483648 in S3, F3. change (2 ^ 27) with 134217728 in TH.
    assert (U1 : 0 <= k_size ks * (k_freq k + k_freq ks) <= 134217728 * 2147483648) by (split; [apply Z.mul_nonneg_nonneg; lia|apply Z.mul_le_mono_nonneg; lia]).
    assert (U2 : 0 <= k_freq ks * (k_size k + k_size ks) <= 2147483648 * 268435456) by (split; [apply Z.mul_nonneg_nonneg; lia|apply Z.mul_le_mono_nonneg; lia]).
    assert (GUARD : is_int (k_freq k + k_freq ks) && is_int (k_size k + k_size ks) && is_int64 (8 * k_size ks * (k_freq k + k_freq ks)) && is_int64 (k_freq ks * (k_size k + k_size ks)) = true).
    { rewrite <- Z.mul_assoc. unfold is_int, is_int64. lia. }
    rewrite GUARD. cbn [negb].
    destruct (Z.ltb_spec (8 * k_size ks * (k_freq k + k_freq ks)) (k_freq ks * (k_size k + k_size ks))) as [DG|DG].
    { eexists; split; [reflexivity|]. apply not_strong_step; [exact W|]. apply NM. intros [_ [_ X]]. rewrite <- QS, <- QF, <- QS', <- QF' in X.
      rewrite (Z.add_comm (k_size k)), (Z.add_comm (k_freq k)) in DG. lia. }
    assert (MF : mf ks).
    { unfold mf, may_follow. rewrite <- QS, <- QF, <- QS', <- QF'. rewrite (Z.add_comm (k_size k)), (Z.add_comm (k_freq k)) in DG. repeat split; lia. }
    eexists; split; [reflexivity|]. split.
    - apply add_nodup, (wi_keys _ _ W).
    - intros j x HI. apply add_In in HI. destruct HI as [HI|[-> [->|[z [HZ ->]]]]]; [apply (wi_in _ _ W _ _ HI)| |].
      + split; [lia|]. exists ks. auto.
      + destruct (wi_in _ _ W _ _ HZ) as [X _]. split; [lia|]. exists ks. auto.
    - intros k' B1 B2 M. rewrite wget_add, fed_snoc, ST. cbn [andb]. destruct (Z.eqb_spec (k_id k') (k_id ks)) as [E3|E3].
      + assert (k' = ks) by (apply ids_inj; auto). subst k'. rewrite (wi_get _ _ W ks B1 B2 M). apply inb_In in SB. rewrite SB. lia.
      + rewrite (wi_get _ _ W k' B1 B2 M). destruct (OTH k' B1 ltac:(congruence)) as [X|X]; [congruence|]. apply inb_false in X. rewrite X. lia.
  Qed.
  Lemma inspect_ok es : forall w done, winv done w -> (forall e, In e es -> exists n, In n (h_nodes h) /\ In e (p_ins P n)) ->
    exists w', inspect_edges C hs st (h_id h) k w es = Ok w' /\ winv (done ++ es) w'.
  Proof.
    induction es as [|e es IH]; intros w done W H.
    - exists w. split; [reflexivity|rewrite app_nil_r; exact W].
    - cbn [inspect_edges]. destruct (inspect_step done w e W (H e (or_introl eq_refl))) as [w1 [-> W1]]. cbn [obind].
      destruct (IH w1 (done ++ [e]) W1) as [w2 [Q W2]]; [intros; apply H; right; assumption|]. exists w2. split; [exact Q|]. rewrite <- app_assoc in W2. exact W2.
  Qed.
  Lemma winv_nil : winv [] [].
  Proof. split; [constructor|intros j x []|intros; reflexivity]. Qed.
End Run.

(** The largest entry. *)
Lemma best_none w : best_pred w = None <-> w = [].
Proof.
  unfold best_pred. assert (G : forall w acc, acc <> None -> fold_left (fun acc p => match acc with None => Some p | Some b => if (snd b <? snd p) || ((snd b =? snd p) && (fst b <? fst p)) then Some p else Some b end) w acc <> (None : option (Z * Z))).
  { clear. induction w as [|p w IH]; intros acc H; [exact H|]. cbn [fold_left]. apply IH. destruct acc as [b|]; [destruct (_ || _); discriminate|discriminate]. }
  split; [|intros ->; reflexivity]. destruct w as [|p w]; [reflexivity|]. cbn [fold_left]. intros H. exfalso. apply (G w (Some p)); [discriminate|exact H].
Qed.
Lemma best_some w b : best_pred w = Some b -> In b w /\ forall p, In p w -> snd p < snd b \/ (snd p = snd b /\ fst p <= fst b).
Proof.
  unfold best_pred. set (f := fun acc p => _).
  assert (G : forall w a, exists b, fold_left f w (Some a) = Some b /\ (b = a \/ In b w) /\ (forall p, p = a \/ In p w -> snd p < snd b \/ (snd p = snd b /\ fst p <= fst b))).
  { clear. induction w as [|q w IH]; intros a; cbn [fold_left].
    - exists a. split; [reflexivity|]. split; [auto|]. intros p [->|[]]. right. lia.
    - cbv beta delta [f]. cbv iota. fold f. destruct ((snd a <? snd q) || ((snd a =? snd q) && (fst a <? fst q))) eqn:E.
      + destruct (IH q) as [b [Q [I M]]]. exists b. split; [exact Q|]. split; [destruct I; cbn [In]; intuition congruence|].
        intros p [->|[<-|Hp]]; [|apply M; auto|apply M; auto]. pose proof (M q (or_introl eq_refl)) as X. lia.
      + destruct (IH a) as [b [Q [I M]]]. exists b. split; [exact Q|]. split; [destruct I; cbn [In]; intuition congruence|].
        intros p [->|[<-|Hp]]; [apply M; auto| |apply M; auto]. pose proof (M a (or_introl eq_refl)) as X. lia. }
  destruct w as [|a w]; [discriminate|]. cbn [fold_left]. destruct (G w a) as [c [Q [I M]]]. change (fold_left f w (Some a) = Some b -> In b (a :: w) /\ (forall p, In p (a :: w) -> snd p < snd b \/ (snd p = snd b /\ fst p <= fst b))).
  rewrite Q. intros E. injection E as <-. split; [destruct I; [left; congruence|right; assumption]|]. intros p [<-|Hp]; apply M; auto.
Qed.
