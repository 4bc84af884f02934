(** Flattening, proofs part 2: the map of functions. *)
From Verif Require Import Base AssocFold SymbolModel SymbolSpec SymbolProofs AttribProofs AfdoModel
  AfdoReadProofs FlattenModel FlattenSpec FlattenPureProofs.

Notation node_put i p s := (node_upd i p (fun _ => s)).
Definition rootname (m : smap) (i : nat) : name := nth i (akeys (sm_names m)) [].

(** AddSymbol followed by Merge *)
Definition outline1 (g : name) (c : symbol) (m : smap) : smap :=
  match aget name_eqb g (sm_names m) with
  | Some j => node_upd j [] (fun r => merge r c) m
  | None => SMap (sm_names m ++ [(g, length (sm_heap m))]) (sm_heap m ++ [merge sym0 c])
  end.
Fixpoint outline (L : list (name * symbol)) (m : smap) : smap :=
  match L with [] => m | (g, c) :: L' => outline L' (outline1 g c m) end.
Lemma outline_app L L' m : outline (L ++ L') m = outline L' (outline L m).
Proof. revert m; induction L as [|[g c] L IH]; intros m; cbn [app outline]; auto. Qed.

(** *** node_get and node_upd *)
Lemma node_upd_get i p f m x : node_get m i p = Some x ->
  exists s, nth_error (sm_heap m) i = Some s /\ node_at s p = Some x /\
    node_upd i p f m = SMap (sm_names m) (set_nth i (upd_at p f s) (sm_heap m)).
Proof.
  unfold node_get, node_upd. destruct (nth_error (sm_heap m) i) as [s|] eqn:E; [|discriminate].
  intros N. exists s. auto.
Qed.
Lemma names_upd i p f m : sm_names (node_upd i p f m) = sm_names m.
Proof. unfold node_upd. destruct (nth_error _ _); reflexivity. Qed.
Lemma len_upd i p f m : length (sm_heap (node_upd i p f m)) = length (sm_heap m).
Proof. unfold node_upd. destruct (nth_error _ _); [|reflexivity]. cbn [sm_heap]. apply length_set_nth. Qed.
Lemma nth_upd i p f m j : nth_error (sm_heap (node_upd i p f m)) j =
  if Nat.eqb j i then match nth_error (sm_heap m) i with Some s => Some (upd_at p f s) | None => None end
  else nth_error (sm_heap m) j.
Proof.
  unfold node_upd. destruct (nth_error (sm_heap m) i) as [s|] eqn:E.
  - cbn [sm_heap]. rewrite nth_set_nth; [reflexivity|]. apply nth_error_Some. congruence.
  - destruct (Nat.eqb_spec j i) as [->|]; [exact E|reflexivity].
Qed.
Lemma get_upd_other i p f m j q : j <> i -> node_get (node_upd i p f m) j q = node_get m j q.
Proof. intros Ne. unfold node_get. rewrite nth_upd. destruct (Nat.eqb_spec j i); [congruence|reflexivity]. Qed.
Lemma get_upd_under i p f m x q : node_get m i p = Some x ->
  node_get (node_upd i p f m) i (p ++ q) = node_at (f x) q.
Proof.
  intros N. unfold node_get in *. rewrite nth_upd, Nat.eqb_refl.
  destruct (nth_error (sm_heap m) i) as [s|]; [|discriminate]. apply node_upd_under. exact N.
Qed.
Lemma get_upd_same i p f m x : node_get m i p = Some x -> node_get (node_upd i p f m) i p = Some (f x).
Proof. intros N. pose proof (get_upd_under i p f m x [] N) as H. rewrite app_nil_r in H. exact H. Qed.
Lemma get_app m i p q x : node_get m i p = Some x -> node_get m i (p ++ q) = node_at x q.
Proof.
  unfold node_get. destruct (nth_error (sm_heap m) i); [|discriminate]. intros N. rewrite node_at_app, N. reflexivity.
Qed.
Lemma get_upd_frame i p f m j q : (j = i -> forall r, q <> p ++ r) ->
  match node_get (node_upd i p f m) j q, node_get m j q with
  | Some a, Some b => s_pos a = s_pos b /\ s_head a = s_head b /\ s_total a = s_total b /\
                      akeys (s_calls a) = akeys (s_calls b) /\
                      (j = i -> is_prefix q p = false -> a = b) /\ (j <> i -> a = b)
  | None, None => True
  | _, _ => False
  end.
Proof.
  intros N. destruct (Nat.eq_dec j i) as [->|Ne].
  - unfold node_get. rewrite nth_upd, Nat.eqb_refl. destruct (nth_error (sm_heap m) i) as [s|]; [|exact I].
    pose proof (node_upd_other p f s q (N eq_refl)) as H.
    destruct (node_at (upd_at p f s) q), (node_at s q); auto. destruct H as (A & B & C & D & G). repeat (split; auto). congruence.
  - rewrite get_upd_other by exact Ne. destruct (node_get m j q); auto. repeat (split; auto).
Qed.
Lemma upd_upd_map i p q f g m : node_upd i (p ++ q) f (node_upd i p g m) = node_upd i p (fun x => upd_at q f (g x)) m.
Proof.
  destruct (nth_error (sm_heap m) i) as [s|] eqn:E.
  - unfold node_upd at 1. rewrite nth_upd, Nat.eqb_refl, E. unfold node_upd. rewrite E. cbn [sm_names sm_heap].
    rewrite set_nth_twice, upd_at_app, upd_upd. reflexivity.
  - unfold node_upd. rewrite E. rewrite E. reflexivity.
Qed.
Lemma upd_ext_map i p f g m x : node_get m i p = Some x -> f x = g x -> node_upd i p f m = node_upd i p g m.
Proof.
  unfold node_get, node_upd. destruct (nth_error (sm_heap m) i) as [s|]; [|reflexivity].
  intros N E. rewrite (upd_ext p f g s x) by auto. reflexivity.
Qed.

(** *** Well-formedness *)
Lemma ok_nth m i s : smap_ok m -> nth_error (sm_heap m) i = Some s -> sym_ok s.
Proof. intros [_ O] E. rewrite Forall_forall in O. apply O. eapply nth_error_In; eauto. Qed.
Lemma ok_get m i p x : smap_ok m -> node_get m i p = Some x -> sym_ok x.
Proof.
  intros O. unfold node_get. destruct (nth_error (sm_heap m) i) as [s|] eqn:E; [|discriminate].
  intros N. eapply node_at_ok; [|exact N]. eapply ok_nth; eauto.
Qed.
Lemma Forall_set_nth {A} (P : A -> Prop) i x l : Forall P l -> P x -> Forall P (set_nth i x l).
Proof. intros H Hx. revert i. induction H; intros [|i]; cbn [set_nth]; constructor; auto. Qed.
Lemma ok_upd m i p f x : smap_ok m -> node_get m i p = Some x -> sym_ok (f x) -> smap_ok (node_upd i p f m).
Proof.
  intros O N H. destruct (node_upd_get i p f m x N) as (s & E & Ns & ->). pose proof (ok_nth m i s O E) as Os.
  destruct O as [[O1 O2] O3]. split; [split|]; cbn [sm_names sm_heap].
  - exact O1.
  - rewrite length_set_nth. exact O2.
  - apply Forall_set_nth; auto. apply (sym_ok_upd p f s x); auto.
Qed.
Lemma ok_range m g i : smap_ok m -> aget name_eqb g (sm_names m) = Some i -> (i < length (sm_heap m))%nat.
Proof.
  intros [[_ S2] _] E. apply aget_In in E; [|apply name_eqb_spec]. apply (in_map snd) in E. rewrite S2 in E.
  apply in_seq in E. cbn [snd] in E. lia.
Qed.
Lemma ok_len m : smap_ok m -> length (sm_names m) = length (sm_heap m).
Proof. intros [[_ S2] _]. apply (f_equal (@length nat)) in S2. rewrite map_length, seq_length in S2. exact S2. Qed.
Lemma ok_index m g i : smap_ok m -> aget name_eqb g (sm_names m) = Some i ->
  nth_error (sm_names m) i = Some (g, i) /\ rootname m i = g.
Proof.
  intros [[_ S2] _] E. apply aget_In in E; [|apply name_eqb_spec]. apply In_nth_error in E. destruct E as [j Ej].
  pose proof (map_nth_error snd _ _ Ej) as H. cbn [snd] in H. rewrite S2 in H.
  assert (Hj : j = i).
  { pose proof H as H'. apply (nth_error_nth _ _ O) in H'.
    assert (j < length (seq 0 (length (sm_heap m))))%nat by (apply nth_error_Some; congruence).
    rewrite seq_length in *. rewrite seq_nth in H' by lia. lia. }
  subst j. split; [exact Ej|]. unfold rootname. apply nth_error_nth. unfold akeys. apply (map_nth_error fst) in Ej. exact Ej.
Qed.
Lemma aset_absent {K V} (eqb : K -> K -> bool) k (v : V) m : aget eqb k m = None -> aset eqb k v m = m ++ [(k, v)].
Proof.
  induction m as [|[k' v'] m IH]; cbn [aget aset app]; [reflexivity|].
  destruct (eqb k k'); [discriminate|]. intros E. rewrite IH by exact E. reflexivity.
Qed.
Lemma set_nth_last {A} (l : list A) x y : set_nth (length l) y (l ++ [x]) = l ++ [y].
Proof. induction l as [|z l IH]; cbn [length app set_nth]; [reflexivity|]. rewrite IH. reflexivity. Qed.

Lemma outline1_code g c m : smap_ok m -> sm_update g (fun r => merge r c) (AddSymbol [] g m) = Ok (outline1 g c m).
Proof.
  intros O. unfold AddSymbol, outline1, sm_update. destruct (aget name_eqb g (sm_names m)) as [j|] eqn:E.
  - rewrite E. pose proof (ok_range m g j O E) as Lj. unfold node_upd.
    destruct (nth_error (sm_heap m) j) as [s|] eqn:Es; [reflexivity|]. apply nth_error_None in Es. lia.
  - cbn [fold_left sm_names sm_heap]. rewrite (aset_absent _ _ _ _ E).
    assert (A : aget name_eqb g (sm_names m ++ [(g, length (sm_heap m))]) = Some (length (sm_heap m))).
    { rewrite <- (aset_absent name_eqb _ _ _ E). apply aget_aset_same. apply name_eqb_spec. }
    rewrite A, nth_error_app2, Nat.sub_diag by lia. cbn [nth_error]. rewrite set_nth_last. reflexivity.
Qed.

Lemma outline1_ok g c m : smap_ok m -> sym_ok c -> smap_ok (outline1 g c m).
Proof.
  intros O Oc. unfold outline1. destruct (aget name_eqb g (sm_names m)) as [j|] eqn:E.
  - pose proof (ok_range m g j O E) as Lj. destruct (nth_error (sm_heap m) j) as [s|] eqn:Es.
    + apply (ok_upd m j [] _ s); auto; [unfold node_get; rewrite Es; reflexivity|].
      apply merge_ok; auto. eapply ok_nth; eauto.
    + apply nth_error_None in Es. lia.
  - destruct O as [[O1 O2] O3]. split; [split|]; cbn [sm_names sm_heap].
    + rewrite map_app. cbn [map fst]. apply NoDup_snoc; auto. apply (aget_None_iff name_eqb name_eqb_spec). exact E.
    + rewrite map_app, app_length, O2, seq_app. reflexivity.
    + apply Forall_app. split; [exact O3|]. constructor; [|constructor]. apply merge_ok; auto using sym0_ok.
Qed.
Lemma outline_ok L : forall m, smap_ok m -> Forall (fun e => sym_ok (snd e)) L -> smap_ok (outline L m).
Proof.
  induction L as [|[g c] L IH]; intros m O H; cbn [outline]; [exact O|]. inversion H; subst.
  apply IH; auto. apply outline1_ok; auto.
Qed.

(** *** Names only grow *)
Definition names_ext (P : name -> Prop) (m m' : smap) : Prop :=
  exists ext, sm_names m' = sm_names m ++ ext /\ Forall (fun e => P (fst e)) ext.
Lemma names_ext_refl P m : names_ext P m m. Proof. exists []. rewrite app_nil_r. auto. Qed.
Lemma names_ext_trans P a b c : names_ext P a b -> names_ext P b c -> names_ext P a c.
Proof.
  intros (x & E & X) (y & E' & Y). exists (x ++ y). rewrite E', E, app_assoc. split; [reflexivity|]. apply Forall_app; auto.
Qed.
Lemma names_ext_eq P m m' : sm_names m' = sm_names m -> names_ext P m m'.
Proof. intros E. exists []. rewrite app_nil_r. auto. Qed.
Lemma names_ext_outline1 (P : name -> Prop) g c m : P g -> names_ext P m (outline1 g c m).
Proof.
  intros H. unfold outline1. destruct (aget name_eqb g (sm_names m)).
  - apply names_ext_eq. apply names_upd.
  - exists [(g, length (sm_heap m))]. split; [reflexivity|]. constructor; auto.
Qed.
Lemma rootname_ext P m m' i : smap_ok m -> names_ext P m m' -> (i < length (sm_heap m))%nat -> rootname m' i = rootname m i.
Proof.
  intros O (x & E & _) Li. unfold rootname, akeys. rewrite E, map_app, app_nth1; [reflexivity|].
  rewrite map_length, ok_len by exact O. exact Li.
Qed.
Lemma get_range m i p x : node_get m i p = Some x -> (i < length (sm_heap m))%nat.
Proof. unfold node_get. intros N. apply nth_error_Some. destruct (nth_error (sm_heap m) i); congruence. Qed.

(** *** Sums and callsites of a map *)
Section MSum.
  Variables (obs : list (Z * pinfo) -> Z) (F : name).
  Hypothesis obs_nil : obs [] = 0.
  Hypothesis obs_add : forall d s, pos_ok d -> pos_ok s -> eqm (obs (pos_add d s)) (obs d + obs s).
  Notation tsum := (tree_sum obs F).

  Fixpoint isum (names : list name) (heap : list symbol) : Z :=
    match names, heap with
    | n :: names', s :: heap' => tsum n s + isum names' heap'
    | _, _ => 0
    end.
  Lemma map_sum_isum m : smap_ok m -> map_sum obs F m = isum (akeys (sm_names m)) (sm_heap m).
  Proof.
    intros [[_ S2] _]. unfold map_sum.
    assert (G : forall (names : list (name * nat)) pre heap, map snd names = seq (length pre) (length heap) ->
       fold_right (fun e a => match nth_error (pre ++ heap) (snd e) with
                              | Some s => tsum (fst e) s | None => 0 end + a) 0 names = isum (akeys names) heap).
    { induction names as [|[n i] names IH]; intros pre heap E; [reflexivity|].
      destruct heap as [|s heap]; [discriminate|]. cbn [map snd length seq] in E.
      assert (Ei : i = length pre) by congruence. assert (E' : map snd names = seq (S (length pre)) (length heap)) by congruence.
      subst i. cbn [fold_right fst snd akeys map isum]. rewrite nth_error_app2, Nat.sub_diag by lia. cbn [nth_error].
      specialize (IH (pre ++ [s]) heap). rewrite <- app_assoc in IH. cbn [app] in IH. unfold akeys in IH. rewrite IH; [reflexivity|].
      rewrite app_length, Nat.add_comm. exact E'. }
    apply (G (sm_names m) [] (sm_heap m)). exact S2.
  Qed.
  Lemma isum_set names : forall heap i s v, length names = length heap -> nth_error heap i = Some s ->
    isum names (set_nth i v heap) = isum names heap + (tsum (nth i names []) v - tsum (nth i names []) s).
  Proof.
    induction names as [|n names IH]; intros [|x heap] i s v L E; try discriminate; [destruct i; discriminate|].
    destruct i as [|i]; cbn [set_nth isum nth nth_error] in *.
    - assert (x = s) as -> by congruence. ring.
    - rewrite (IH heap i s v) by (auto; cbn [length] in L; congruence). ring.
  Qed.
  Lemma isum_snoc names : forall heap g c, length names = length heap -> isum (names ++ [g]) (heap ++ [c]) = isum names heap + tsum g c.
  Proof.
    induction names as [|n names IH]; intros [|x heap] g c L; try discriminate; cbn [app isum].
    - ring.
    - rewrite IH by (cbn [length] in L; congruence). ring.
  Qed.

  Lemma map_sum_upd m i p f x : smap_ok m -> node_get m i p = Some x -> sym_ok (f x) ->
    map_sum obs F (node_upd i p f m) =
    map_sum obs F m + (tsum (name_of (rootname m i) p) (f x) - tsum (name_of (rootname m i) p) x).
  Proof.
    intros O N Of. rewrite (map_sum_isum _ (ok_upd m i p f x O N Of)), (map_sum_isum m O).
    destruct (node_upd_get i p f m x N) as (s & E & Ns & ->). cbn [sm_names sm_heap].
    pose proof (ok_len m O) as L.
    rewrite (isum_set _ _ i s) by (auto; unfold akeys; rewrite map_length; exact L).
    change (nth i (akeys (sm_names m)) []) with (rootname m i).
    rewrite (tsum_upd obs F p (rootname m i) f s x Ns). ring.
  Qed.
  Lemma map_sum_outline1 g c m : smap_ok m -> sym_ok c -> eqm (map_sum obs F (outline1 g c m)) (map_sum obs F m + tsum g c).
  Proof.
    intros O Oc. pose proof (outline1_ok g c m O Oc) as O'. revert O'. unfold outline1.
    destruct (aget name_eqb g (sm_names m)) as [j|] eqn:E; intros O'.
    - pose proof (ok_range m g j O E) as Lj. destruct (nth_error (sm_heap m) j) as [s|] eqn:Es; [|apply nth_error_None in Es; lia].
      pose proof (ok_nth m j s O Es) as Os.
      rewrite (map_sum_upd m j [] _ s) by (auto using merge_ok; unfold node_get; rewrite Es; reflexivity).
      change (name_of (rootname m j) []) with (rootname m j). destruct (ok_index m g j O E) as [_ ->].
      destruct (tsum_merge obs F obs_nil obs_add c g s Os Oc) as [z Ez]. rewrite Ez. exists z. ring.
    - rewrite (map_sum_isum _ O'), (map_sum_isum m O). cbn [sm_names sm_heap].
      unfold akeys. rewrite map_app. cbn [map fst]. rewrite isum_snoc by (rewrite map_length; apply ok_len; exact O).
      destruct (tsum_merge obs F obs_nil obs_add c g sym0 sym0_ok Oc) as [z Ez]. rewrite Ez, (tsum_sym0 obs F obs_nil g).
      exists z. ring.
  Qed.

End MSum.

Section MKeys.
  Variable R : name -> callsite -> Prop.
  Definition akm (m : smap) : Prop :=
    forall i s, nth_error (sm_heap m) i = Some s -> all_keys R (rootname m i) s.
  Lemma akm_get m i p x : akm m -> node_get m i p = Some x -> all_keys R (name_of (rootname m i) p) x.
  Proof.
    intros A. unfold node_get. destruct (nth_error (sm_heap m) i) as [s|] eqn:E; [|discriminate].
    apply all_keys_node. auto.
  Qed.
  Lemma akm_upd m i p f x : akm m -> node_get m i p = Some x -> all_keys R (name_of (rootname m i) p) (f x) ->
    akm (node_upd i p f m).
  Proof.
    intros A N H j s. rewrite nth_upd. unfold rootname. rewrite names_upd. fold (rootname m j).
    destruct (Nat.eqb_spec j i) as [->|Ne]; [|apply A].
    destruct (node_upd_get i p f m x N) as (s0 & E & Ns & _). rewrite E. intros X. assert (s = upd_at p f s0) as -> by congruence.
    apply (all_keys_upd R p (rootname m i) f s0 x); auto.
  Qed.
  Lemma akm_outline1 g c m : smap_ok m -> akm m -> all_keys R g c -> akm (outline1 g c m).
  Proof.
    intros O A H. unfold outline1. destruct (aget name_eqb g (sm_names m)) as [j|] eqn:E.
    - pose proof (ok_range m g j O E) as Lj. destruct (nth_error (sm_heap m) j) as [s|] eqn:Es; [|apply nth_error_None in Es; lia].
      apply (akm_upd m j [] _ s); auto; [unfold node_get; rewrite Es; reflexivity|].
      change (name_of (rootname m j) []) with (rootname m j). destruct (ok_index m g j O E) as [_ X].
      apply all_keys_merge; [apply A; exact Es|]. rewrite X. exact H.
    - intros i s. cbn [sm_heap]. destruct (lt_dec i (length (sm_heap m))) as [Li|Li].
      + rewrite nth_error_app1 by exact Li. intros Es. unfold rootname, akeys. cbn [sm_names].
        rewrite map_app, app_nth1 by (rewrite map_length, ok_len by exact O; exact Li). apply A. exact Es.
      + intros Es. assert (i < length (sm_heap m ++ [merge sym0 c]))%nat by (apply nth_error_Some; congruence).
        rewrite app_length in *. cbn [length] in *. assert (i = length (sm_heap m)) as -> by lia.
        rewrite nth_error_app2, Nat.sub_diag in Es by lia. cbn [nth_error] in Es. assert (s = merge sym0 c) as -> by congruence.
        unfold rootname, akeys. cbn [sm_names]. rewrite map_app, app_nth2 by (rewrite map_length, ok_len by exact O; lia).
        rewrite map_length, ok_len, Nat.sub_diag by exact O. cbn [map fst nth]. apply all_keys_merge; [exact I|exact H].
  Qed.
End MKeys.
