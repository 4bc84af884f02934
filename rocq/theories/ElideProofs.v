(** Proofs about suffix elision. *)
From Verif Require Import Base AssocFold ISort SymbolModel SymbolSpec SymbolProofs AttribProofs ElideModel.
Ltac Zify.zify_post_hook ::= Z.div_mod_to_equations.

(** *** Observers are additive *)
Lemma observe_merge o d s : sym_ok d -> sym_ok s ->
  observe o (merge d s) = (observe o d + observe o s) mod 2 ^ 64.
Proof.
  intros Hd Hs. destruct o as [p|p|p l|p l|p l t]; cbn [observe].
  - apply (merge_pointwise d s Hd Hs p 0 []).
  - apply (merge_pointwise d s Hd Hs p 0 []).
  - apply (merge_pointwise d s Hd Hs p l []).
  - apply (merge_pointwise d s Hd Hs p l []).
  - apply (merge_pointwise d s Hd Hs p l t).
Qed.
Lemma node_at_sym0 k p : node_at sym0 (k :: p) = None.
Proof. reflexivity. Qed.
Lemma observe_sym0 o : observe o sym0 = 0.
Proof.
  destruct o as [p|p|p l|p l|p l t]; cbn [observe];
    unfold total_at, head_at, count_at, ninst_at, target_at, pos_at; destruct p; reflexivity.
Qed.

(** *** Live sums *)
Fixpoint zsum (n : nat) (g : nat -> Z) : Z :=
  match n with O => 0 | S m => zsum m g + g m end.
Lemma zsum_ext n g g' : (forall k, (k < n)%nat -> g k = g' k) -> zsum n g = zsum n g'.
Proof.
  induction n as [|n IH]; intros H; cbn [zsum]; [reflexivity|].
  rewrite IH by (intros; apply H; lia). rewrite H by lia. reflexivity.
Qed.
Lemma zsum_change n j g g' : (j < n)%nat -> (forall k, (k < n)%nat -> k <> j -> g' k = g k) ->
  zsum n g' = zsum n g + (g' j - g j).
Proof.
  induction n as [|n IH]; intros Hj H; [lia|]. cbn [zsum].
  destruct (Nat.eq_dec j n) as [->|Hne].
  - rewrite (zsum_ext n g' g) by (intros; apply H; lia). lia.
  - rewrite IH by (lia || (intros; apply H; lia)). rewrite (H n) by lia. lia.
Qed.

Definition live (m : smap) (k : nat) : bool := existsb (Nat.eqb k) (map snd (sm_names m)).
Definition live_sum (o : observer) (m : smap) : Z :=
  zsum (length (sm_heap m)) (fun k => if live m k then observe o (nth k (sm_heap m) sym0) else 0).

Definition smap_ok (m : smap) : Prop :=
  NoDup (akeys (sm_names m)) /\ Forall sym_ok (sm_heap m) /\
  Forall (fun ni => (snd ni < length (sm_heap m))%nat) (sm_names m).

Lemma live_In m k : live m k = true <-> exists n, In (n, k) (sm_names m).
Proof.
  unfold live. rewrite existsb_exists. split.
  - intros (x & Hi & E). apply Nat.eqb_eq in E. subst x. apply in_map_iff in Hi.
    destruct Hi as ([n x] & <- & Hi). eauto.
  - intros (n & Hi). exists k. split; [|apply Nat.eqb_refl]. apply in_map_iff. exists (n, k). auto.
Qed.

Lemma aremove_In {K V} (eqb : K -> K -> bool) (sp : forall a b, reflect (a = b) (eqb a b)) k (m : list (K * V)) k2 v :
  In (k2, v) (aremove eqb k m) <-> In (k2, v) m /\ k2 <> k.
Proof.
  induction m as [|[k' v'] m IH]; cbn [aremove]; [cbn; tauto|].
  destruct (sp k k') as [->|Hne]; cbn [In]; rewrite IH.
  - split; [tauto|]. intros [[E|H] Hk]; [injection E; congruence|tauto].
  - split; [intros [E|H]; [injection E; intros; subst; split; auto; congruence|tauto]|tauto].
Qed.
Lemma aremove_get {K V} (eqb : K -> K -> bool) (sp : forall a b, reflect (a = b) (eqb a b)) k (m : list (K * V)) k2 :
  aget eqb k2 (aremove eqb k m) = if eqb k2 k then None else aget eqb k2 m.
Proof.
  induction m as [|[k' v'] m IH]; cbn [aremove aget]; [destruct (eqb k2 k); reflexivity|].
  destruct (sp k k') as [->|Hne]; cbn [aget]; rewrite IH.
  - destruct (sp k2 k'); reflexivity.
  - destruct (sp k2 k') as [->|]; [|reflexivity]. destruct (sp k' k); [congruence|reflexivity].
Qed.
Lemma aremove_keys {K V} (eqb : K -> K -> bool) (sp : forall a b, reflect (a = b) (eqb a b)) k (m : list (K * V)) :
  NoDup (akeys m) -> NoDup (akeys (aremove eqb k m)).
Proof.
  induction m as [|[k' v'] m IH]; cbn [aremove akeys map fst]; intros H; [constructor|].
  inversion H; subst. destruct (sp k k'); [apply IH; assumption|]. cbn [akeys map fst]. constructor; [|apply IH; assumption].
  intros Hi. apply H2. apply in_map_iff in Hi. destruct Hi as ([a b] & E & Hi). cbn in E. subst a.
  apply (aremove_In eqb sp) in Hi. apply in_map_iff. exists (k', b). tauto.
Qed.

Definition redirect (i j : nat) (names : list (name * nat)) :=
  map (fun '(n, x) => (n, if Nat.eqb x i then j else x)) names.
Lemma akeys_redirect i j names : akeys (redirect i j names) = akeys names.
Proof. unfold akeys, redirect. rewrite map_map. apply map_ext. intros []; reflexivity. Qed.
Lemma aget_redirect i j names n :
  aget name_eqb n (redirect i j names) = option_map (fun x => if Nat.eqb x i then j else x) (aget name_eqb n names).
Proof.
  unfold redirect. induction names as [|[k v] l IH]; [reflexivity|]. cbn [map aget].
  destruct (name_eqb n k); [reflexivity|exact IH].
Qed.
Lemma In_redirect i j names n k : In (n, k) (redirect i j names) <->
  exists x, In (n, x) names /\ k = if Nat.eqb x i then j else x.
Proof.
  unfold redirect. rewrite in_map_iff. split.
  - intros ([a x] & E & Hi). injection E; intros; subst. eauto.
  - intros (x & Hi & ->). exists (n, x). auto.
Qed.

Lemma set_nth_length {A} i (x : A) l : length (set_nth i x l) = length l.
Proof. revert i; induction l as [|y l IH]; intros [|i]; cbn [set_nth length]; auto. Qed.
Lemma set_nth_nth {A} i k (x d : A) l : (i < length l)%nat ->
  nth k (set_nth i x l) d = if Nat.eqb k i then x else nth k l d.
Proof.
  revert i k; induction l as [|y l IH]; intros i k Hi; cbn [length] in Hi; [lia|].
  destruct i as [|i], k as [|k]; cbn [set_nth nth Nat.eqb]; try reflexivity. apply IH; lia.
Qed.
Lemma set_nth_Forall {A} (P : A -> Prop) i x l : Forall P l -> P x -> Forall P (set_nth i x l).
Proof.
  revert i; induction l as [|y l IH]; intros [|i] Hl Hx; cbn [set_nth]; auto; inversion Hl; subst; constructor; auto.
Qed.

(** The name table and heap between insertion and merge. *)
Definition insert_orig (orig : name -> name) (m : smap) (y : name) (i : nat)
  : nat * list (name * nat) * list symbol :=
  let names1 := aremove name_eqb y (sm_names m) in
  let fresh := length (sm_heap m) in
  match aget name_eqb (orig y) names1 with
  | Some j => if Nat.eqb j i
              then (fresh, aset name_eqb (orig y) fresh names1, sm_heap m ++ [sym0])
              else (j, names1, sm_heap m)
  | None => (fresh, aset name_eqb (orig y) fresh names1, sm_heap m ++ [sym0])
  end.

Lemma insert_orig_spec orig m y i :
  smap_ok m -> In (y, i) (sm_names m) ->
  let '(j, names2, heap1) := insert_orig orig m y i in
  j <> i /\ NoDup (akeys names2) /\ aget name_eqb (orig y) names2 = Some j /\
  (j < length heap1)%nat /\ Forall sym_ok heap1 /\
  Forall (fun ni => (snd ni < length heap1)%nat) names2 /\
  ((heap1 = sm_heap m /\ names2 = aremove name_eqb y (sm_names m)) \/
   (heap1 = sm_heap m ++ [sym0] /\ j = length (sm_heap m) /\
    names2 = aset name_eqb (orig y) j (aremove name_eqb y (sm_names m)) /\
    (aget name_eqb (orig y) (aremove name_eqb y (sm_names m)) = None \/
     aget name_eqb (orig y) (aremove name_eqb y (sm_names m)) = Some i))).
Proof.
  intros (Hn & Hh & Hb) Hy. unfold insert_orig.
  assert (Hi : (i < length (sm_heap m))%nat).
  { rewrite Forall_forall in Hb. apply (Hb _ Hy). }
  set (names1 := aremove name_eqb y (sm_names m)).
  assert (Hn1 : NoDup (akeys names1)) by (apply aremove_keys; auto).
  assert (Hb1 : Forall (fun ni => (snd ni < length (sm_heap m))%nat) names1).
  { apply Forall_forall. intros [n x] Hx. apply aremove_In in Hx; auto.
    rewrite Forall_forall in Hb. apply Hb. tauto. }
  assert (Hfresh : forall old, (old = None \/ old = Some i) -> aget name_eqb (orig y) names1 = old ->
    length (sm_heap m) <> i /\ NoDup (akeys (aset name_eqb (orig y) (length (sm_heap m)) names1)) /\
    aget name_eqb (orig y) (aset name_eqb (orig y) (length (sm_heap m)) names1) = Some (length (sm_heap m)) /\
    (length (sm_heap m) < length (sm_heap m ++ [sym0]))%nat /\ Forall sym_ok (sm_heap m ++ [sym0]) /\
    Forall (fun ni => (snd ni < length (sm_heap m ++ [sym0]))%nat) (aset name_eqb (orig y) (length (sm_heap m)) names1) /\
    ((sm_heap m ++ [sym0] = sm_heap m /\ aset name_eqb (orig y) (length (sm_heap m)) names1 = names1) \/
     (sm_heap m ++ [sym0] = sm_heap m ++ [sym0] /\ length (sm_heap m) = length (sm_heap m) /\
      aset name_eqb (orig y) (length (sm_heap m)) names1 = aset name_eqb (orig y) (length (sm_heap m)) names1 /\
      (aget name_eqb (orig y) names1 = None \/ aget name_eqb (orig y) names1 = Some i)))).
  { intros old Hold Hget. split; [lia|]. split; [apply NoDup_akeys_aset; auto|].
    split; [apply aget_aset_same; auto|]. rewrite app_length. cbn [length]. split; [lia|].
    split; [apply Forall_app; split; [exact Hh|constructor; [apply sym0_ok|constructor]]|].
    split.
    - apply Forall_forall. intros [n x] Hx. apply (In_aset name_eqb name_eqb_spec) in Hx. cbn [snd].
      destruct Hx as [Hx| ->]; [|lia]. rewrite Forall_forall in Hb1. specialize (Hb1 _ Hx). cbn [snd] in Hb1. lia.
    - right. rewrite Hget. repeat split; auto. }
  destruct (aget name_eqb (orig y) names1) as [j|] eqn:E.
  - destruct (Nat.eqb_spec j i) as [->|Hne].
    + apply (Hfresh (Some i)); auto.
    + split; [exact Hne|]. split; [exact Hn1|]. split; [exact E|].
      split; [apply aget_In in E; auto; rewrite Forall_forall in Hb1; apply (Hb1 _ E)|].
      split; [exact Hh|]. split; [exact Hb1|]. left; auto.
  - apply (Hfresh None); auto.
Qed.

Lemma elide_one_eq orig m y i :
  smap_ok m -> aget name_eqb y (sm_names m) = Some i ->
  elide_one orig m y =
  let '(j, names2, heap1) := insert_orig orig m y i in
  Ok (SMap (redirect i j names2)
           (set_nth j (merge (nth j heap1 sym0) (nth i (sm_heap m) sym0)) heap1)).
Proof.
  intros Hok E. pose proof (insert_orig_spec orig m y i Hok) as H.
  assert (Hy : In (y, i) (sm_names m)) by (apply aget_In in E; auto).
  specialize (H Hy). unfold elide_one. rewrite E.
  destruct Hok as (_ & _ & Hb). rewrite Forall_forall in Hb. specialize (Hb _ Hy). cbn [snd] in Hb.
  rewrite (nth_error_nth' (sm_heap m) sym0 Hb). fold (insert_orig orig m y i).
  destruct (insert_orig orig m y i) as [[j names2] heap1].
  destruct H as (_ & _ & _ & Hj & _). rewrite (nth_error_nth' heap1 sym0 Hj). reflexivity.
Qed.

Lemma Forall_nth_ok l k : Forall sym_ok l -> sym_ok (nth k l sym0).
Proof.
  intros H. destruct (Nat.lt_ge_cases k (length l)) as [Hl|Hl].
  - rewrite Forall_forall in H. apply H. apply nth_In; exact Hl.
  - rewrite nth_overflow by exact Hl. apply sym0_ok.
Qed.

Lemma elide_one_ok orig m y : smap_ok m -> In y (akeys (sm_names m)) ->
  exists m', elide_one orig m y = Ok m' /\ smap_ok m' /\
    (forall n, In n (akeys (sm_names m')) <-> n = orig y \/ (In n (akeys (sm_names m)) /\ n <> y)) /\
    forall o, live_sum o m' mod 2 ^ 64 = live_sum o m mod 2 ^ 64.
Proof.
  intros Hok Hy.
  assert (Ei : exists i, aget name_eqb y (sm_names m) = Some i).
  { destruct (aget name_eqb y (sm_names m)) eqn:E; [eauto|]. apply aget_None_iff in E; auto. tauto. }
  destruct Ei as [i Ei]. rewrite (elide_one_eq orig m y i Hok Ei).
  assert (Hyi : In (y, i) (sm_names m)) by (apply aget_In in Ei; auto).
  pose proof (insert_orig_spec orig m y i Hok Hyi) as H.
  destruct (insert_orig orig m y i) as [[j names2] heap1].
  destruct H as (Hji & Hn2 & Hgj & Hjl & Hh1 & Hb2 & Hcase).
  eexists. split; [reflexivity|].
  destruct Hok as (Hn & Hh & Hb).
  assert (Hil : (i < length (sm_heap m))%nat) by (rewrite Forall_forall in Hb; apply (Hb _ Hyi)).
  assert (Hmok : sym_ok (merge (nth j heap1 sym0) (nth i (sm_heap m) sym0))).
  { apply merge_ok; apply Forall_nth_ok; assumption. }
  split; [|split].
  - split; [cbn [sm_names]; rewrite akeys_redirect; exact Hn2|].
    cbn [sm_heap sm_names]. split; [apply set_nth_Forall; assumption|].
    rewrite set_nth_length. apply Forall_forall. intros [n k] Hk. apply In_redirect in Hk.
    destruct Hk as (x & Hx & ->). cbn [snd]. destruct (Nat.eqb_spec x i); [exact Hjl|].
    rewrite Forall_forall in Hb2. apply (Hb2 _ Hx).
  - intros n. cbn [sm_names]. rewrite akeys_redirect.
    assert (Hrem : forall n, In n (akeys (aremove name_eqb y (sm_names m))) <-> In n (akeys (sm_names m)) /\ n <> y).
    { intros a. unfold akeys. rewrite !in_map_iff. split.
      - intros ([a' b] & E & Hi). cbn [fst] in E. subst a'. apply aremove_In in Hi; auto.
        destruct Hi as [Hi Hne]. split; [exists (a, b); auto|exact Hne].
      - intros (([a' b] & E & Hi) & Hne). cbn [fst] in E. subst a'. exists (a, b). split; [reflexivity|].
        apply aremove_In; auto. }
    destruct Hcase as [[_ ->]|(_ & _ & -> & _)].
    + rewrite Hrem. split; [tauto|]. intros [->|H]; [|exact H].
      apply aget_In in Hgj; auto. apply Hrem. apply (in_map fst) in Hgj. exact Hgj.
    + rewrite (In_akeys_aset name_eqb name_eqb_spec). rewrite Hrem. tauto.
  - intros o. unfold live_sum. cbn [sm_heap]. rewrite set_nth_length.
    set (m' := SMap (redirect i j names2) _).
    set (f := fun k => observe o (nth k (sm_heap m) sym0)).
    assert (Hlive' : forall k, live m' k = if Nat.eqb k i then false else
              if Nat.eqb k j then true else live m k).
    { intros k. destruct (Nat.eqb_spec k i) as [->|Hki].
      - destruct (live m' i) eqn:E; [|reflexivity]. apply live_In in E. destruct E as (n & E).
        cbn [m' sm_names] in E. apply In_redirect in E. destruct E as (x & _ & E).
        destruct (Nat.eqb_spec x i); congruence.
      - destruct (Nat.eqb_spec k j) as [->|Hkj].
        + apply live_In. exists (orig y). cbn [m' sm_names]. apply In_redirect.
          exists j. split; [apply aget_In in Hgj; auto|]. destruct (Nat.eqb_spec j i); congruence.
        + apply eq_true_iff_eq. rewrite !live_In. cbn [m' sm_names]. split.
          * intros (n & E). apply In_redirect in E. destruct E as (x & Hx & E).
            destruct (Nat.eqb_spec x i); [congruence|]. subst x. exists n.
            destruct Hcase as [[_ ->]|(_ & _ & -> & _)].
            -- apply aremove_In in Hx; auto. tauto.
            -- apply (In_aset name_eqb name_eqb_spec) in Hx. destruct Hx as [Hx|Hx]; [|congruence].
               apply aremove_In in Hx; auto. tauto.
          * intros (n & E). exists n. apply In_redirect. exists k.
            split; [|destruct (Nat.eqb_spec k i); congruence].
            assert (Hny : n <> y).
            { intros ->. apply (aget_NoDup_In name_eqb name_eqb_spec _ _ _ Hn) in E. congruence. }
            assert (Hrm : In (n, k) (aremove name_eqb y (sm_names m))) by (apply aremove_In; auto).
            destruct Hcase as [[_ ->]|(_ & _ & -> & Hold)]; [exact Hrm|].
            destruct (name_eqb_spec n (orig y)) as [->|Hno].
            -- apply (aget_NoDup_In name_eqb name_eqb_spec _ _ _ (aremove_keys _ name_eqb_spec _ _ Hn)) in Hrm.
               destruct Hold; congruence.
            -- apply (aget_In name_eqb name_eqb_spec). rewrite aget_aset_other by auto.
               apply (aget_NoDup_In name_eqb name_eqb_spec); [|exact Hrm]. apply aremove_keys; auto. }
    assert (Hlivei : live m i = true) by (apply live_In; eauto).
    assert (Hmerge : observe o (merge (nth j heap1 sym0) (nth i (sm_heap m) sym0))
                     = (observe o (nth j heap1 sym0) + f i) mod 2 ^ 64).
    { apply observe_merge; apply Forall_nth_ok; assumption. }
    set (dst := merge (nth j heap1 sym0) (nth i (sm_heap m) sym0)) in *.
    (* new sum over heap1 *)
    set (g1 := fun k => if live m k then observe o (nth k heap1 sym0) else 0).
    set (g2 := fun k => if Nat.eqb k i then 0 else g1 k).
    set (g3 := fun k => if live m' k then observe o (nth k (set_nth j dst heap1) sym0) else 0).
    assert (Hlen : (length (sm_heap m) <= length heap1)%nat).
    { destruct Hcase as [[-> _]|(-> & _)]; [lia|]. rewrite app_length. lia. }
    assert (Hg1j : g1 j = observe o (nth j heap1 sym0)).
    { unfold g1. destruct Hcase as [[E1 E2]|(E1 & E2 & _)].
      - assert (Hl : live m j = true).
        { apply live_In. exists (orig y). subst names2. apply aget_In in Hgj; auto.
          apply aremove_In in Hgj; auto. tauto. }
        rewrite Hl. reflexivity.
      - subst heap1 j. rewrite app_nth2 by lia. rewrite Nat.sub_diag. cbn [nth].
        rewrite observe_sym0. destruct (live m (length (sm_heap m))); reflexivity. }
    assert (S1 : zsum (length heap1) g1 = zsum (length (sm_heap m)) (fun k => if live m k then f k else 0)).
    { destruct Hcase as [[-> _]|(E1 & E2 & _)]; [reflexivity|]. subst heap1.
      rewrite app_length. cbn [length]. rewrite Nat.add_1_r. cbn [zsum].
      rewrite (zsum_ext (length (sm_heap m)) g1 (fun k => if live m k then f k else 0)).
      - rewrite E2 in Hg1j. rewrite Hg1j, app_nth2 by lia. rewrite Nat.sub_diag. cbn [nth].
        rewrite observe_sym0. lia.
      - intros k Hk. unfold g1, f. rewrite app_nth1 by lia. reflexivity. }
    assert (S2 : zsum (length heap1) g2 = zsum (length heap1) g1 - f i).
    { rewrite (zsum_change (length heap1) i g1 g2) by (lia || (intros k _ Hk; unfold g2; destruct (Nat.eqb_spec k i); congruence)).
      assert (Enth : nth i heap1 sym0 = nth i (sm_heap m) sym0).
      { destruct Hcase as [[-> _]|(-> & _)]; [reflexivity|]. apply app_nth1; lia. }
      assert (G2 : g2 i = 0) by (unfold g2; rewrite Nat.eqb_refl; reflexivity).
      assert (G1 : g1 i = f i) by (unfold g1, f; rewrite Hlivei, Enth; reflexivity).
      rewrite G1, G2. lia. }
    assert (S3 : zsum (length heap1) g3 = zsum (length heap1) g2 + (g3 j - g2 j)).
    { apply zsum_change; [exact Hjl|]. intros k Hk Hkj. unfold g3, g2, g1. rewrite Hlive'.
      rewrite set_nth_nth by exact Hjl. destruct (Nat.eqb_spec k j); [congruence|].
      destruct (Nat.eqb_spec k i); reflexivity. }
    assert (E3 : g3 j = (observe o (nth j heap1 sym0) + f i) mod 2 ^ 64).
    { unfold g3. rewrite Hlive'. rewrite set_nth_nth by exact Hjl. rewrite Nat.eqb_refl.
      destruct (Nat.eqb_spec j i); [congruence|]. exact Hmerge. }
    assert (E2 : g2 j = observe o (nth j heap1 sym0)).
    { unfold g2. destruct (Nat.eqb_spec j i); [congruence|]. exact Hg1j. }
    unfold f in S1. rewrite <- S1.
    change (zsum (length heap1) g3 mod 2 ^ 64 = zsum (length heap1) g1 mod 2 ^ 64).
    rewrite S3, S2, E3, E2.
    change (2 ^ 64) with 18446744073709551616. lia.
Qed.

Lemma elide_all_ok orig ys : forall m, smap_ok m -> NoDup ys ->
  (forall y, In y ys -> In y (akeys (sm_names m))) ->
  exists m', elide_all_of orig ys m = Ok m' /\ smap_ok m' /\
    (forall o, live_sum o m' mod 2 ^ 64 = live_sum o m mod 2 ^ 64).
Proof.
  induction ys as [|y ys IH]; intros m Hok Hnd Hin.
  - exists m. cbn. auto.
  - inversion Hnd; subst.
    destruct (elide_one_ok orig m y Hok (Hin y (or_introl eq_refl))) as (m1 & E1 & Hok1 & Hk1 & Hs1).
    destruct (IH m1 Hok1 H2) as (m2 & E2 & Hok2 & Hs2).
    + intros z Hz. apply Hk1. right. split; [apply Hin; right; exact Hz|]. congruence.
    + exists m2. cbn [elide_all_of]. rewrite E1. cbn [obind]. split; [exact E2|]. split; [exact Hok2|].
      intros o. rewrite Hs2. apply Hs1.
Qed.

(** *** Without shared objects *)
Definition unshared (m : smap) : Prop := NoDup (map snd (sm_names m)).

Lemma nodup_snd_inj {A} (l : list (A * nat)) a b i :
  NoDup (map snd l) -> In (a, i) l -> In (b, i) l -> a = b.
Proof.
  induction l as [|[c j] l IH]; cbn [map snd]; intros Hn Ha Hb; [destruct Ha|].
  inversion Hn; subst. destruct Ha as [Ea|Ha], Hb as [Eb|Hb].
  - congruence.
  - injection Ea; intros; subst. exfalso. apply H1. apply in_map_iff. exists (b, i). auto.
  - injection Eb; intros; subst. exfalso. apply H1. apply in_map_iff. exists (a, i). auto.
  - eauto.
Qed.
Lemma map_snd_aset_notin n (v : nat) l : ~ In n (akeys l) -> map snd (aset name_eqb n v l) = map snd l ++ [v].
Proof.
  induction l as [|[k x] l IH]; cbn [aset akeys map fst snd app In]; intros H; [reflexivity|].
  destruct (name_eqb_spec n k); [exfalso; apply H; auto|]. cbn [map snd app]. rewrite IH; auto.
Qed.

Definition fd (m : smap) (n : name) : symbol := match sm_find m n with Some s => s | None => sym0 end.

Lemma elide_one_unshared orig m y : smap_ok m -> unshared m -> In y (akeys (sm_names m)) ->
  orig y <> y ->
  exists m', elide_one orig m y = Ok m' /\ smap_ok m' /\ unshared m' /\
    forall n, sm_find m' n = if name_eqb n (orig y) then Some (merge (fd m (orig y)) (fd m y))
                             else if name_eqb n y then None else sm_find m n.
Proof.
  intros Hok Hun Hy Hne.
  destruct (elide_one_ok orig m y Hok Hy) as (m' & E & Hok' & _).
  exists m'. split; [exact E|]. split; [exact Hok'|].
  assert (Ei : exists i, aget name_eqb y (sm_names m) = Some i).
  { destruct (aget name_eqb y (sm_names m)) eqn:Eg; [eauto|]. apply aget_None_iff in Eg; auto. tauto. }
  destruct Ei as [i Ei]. rewrite (elide_one_eq orig m y i Hok Ei) in E.
  assert (Hyi : In (y, i) (sm_names m)) by (apply aget_In in Ei; auto).
  pose proof (insert_orig_spec orig m y i Hok Hyi) as H.
  destruct (insert_orig orig m y i) as [[j names2] heap1].
  destruct H as (Hji & Hn2 & Hgj & Hjl & Hh1 & Hb2 & Hcase).
  injection E; intros <-. clear E.
  destruct Hok as (Hn & Hh & Hb).
  assert (Hnoi : forall n, ~ In (n, i) (aremove name_eqb y (sm_names m))).
  { intros n Hi. apply aremove_In in Hi; auto. destruct Hi as [Hi Hny]. apply Hny.
    eapply nodup_snd_inj; eauto. }
  assert (Hnoi2 : forall n, ~ In (n, i) names2).
  { intros n Hi. destruct Hcase as [[_ ->]|(_ & _ & -> & _)]; [eapply Hnoi; eauto|].
    apply (In_aset name_eqb name_eqb_spec) in Hi. destruct Hi as [Hi|Hi]; [eapply Hnoi; eauto|congruence]. }
  assert (Hred : redirect i j names2 = names2).
  { unfold redirect. clear - Hnoi2. induction names2 as [|[n x] l IH]; [reflexivity|]. cbn [map].
    destruct (Nat.eqb_spec x i) as [->|]; [exfalso; apply (Hnoi2 n); left; reflexivity|].
    f_equal. apply IH. intros n' Hi. apply (Hnoi2 n'). right; exact Hi. }
  assert (Hold : aget name_eqb (orig y) (aremove name_eqb y (sm_names m)) = aget name_eqb (orig y) (sm_names m)).
  { rewrite aremove_get by auto. destruct (name_eqb_spec (orig y) y); [congruence|reflexivity]. }
  assert (Hunrem : NoDup (map snd (aremove name_eqb y (sm_names m)))).
  { clear - Hun. unfold unshared in Hun. induction (sm_names m) as [|[n x] l IH]; [constructor|].
    cbn [map snd] in Hun. inversion Hun; subst. cbn [aremove].
    destruct (name_eqb y n); [auto|]. cbn [map snd]. constructor; [|auto].
    intros Hi. apply H1. apply in_map_iff in Hi. destruct Hi as ([a b] & E & Hi). cbn in E; subst b.
    apply aremove_In in Hi; auto. apply in_map_iff. exists (a, x). tauto. }
  split.
  - unfold unshared. cbn [sm_names]. rewrite Hred.
    destruct Hcase as [[_ ->]|(_ & Ej & -> & Hor)]; [exact Hunrem|].
    assert (Hnone : aget name_eqb (orig y) (aremove name_eqb y (sm_names m)) = None).
    { destruct Hor as [|Hor]; [assumption|]. exfalso. apply (Hnoi (orig y)). apply aget_In in Hor; auto. }
    rewrite map_snd_aset_notin by (apply aget_None_iff in Hnone; auto).
    apply NoDup_snoc; [exact Hunrem|]. intros Hi. apply in_map_iff in Hi.
    destruct Hi as ([a b] & Eb & Hi). cbn in Eb. subst b. apply aremove_In in Hi; auto.
    rewrite Forall_forall in Hb. destruct Hi as [Hi _]. specialize (Hb _ Hi). cbn [snd] in Hb. lia.
  - intros n. unfold sm_find at 1. cbn [sm_names sm_heap]. rewrite Hred.
    destruct (name_eqb_spec n (orig y)) as [->|Hno].
    + rewrite Hgj. rewrite nth_set_nth by exact Hjl. rewrite Nat.eqb_refl. do 2 f_equal.
      * unfold fd, sm_find. rewrite <- Hold.
        destruct Hcase as [[-> ->]|(-> & -> & -> & Hor)].
        -- rewrite Hgj. rewrite (nth_error_nth' (sm_heap m) sym0 Hjl). reflexivity.
        -- rewrite app_nth2 by lia. rewrite Nat.sub_diag. cbn [nth].
           destruct Hor as [->|Hor]; [reflexivity|]. exfalso. apply (Hnoi (orig y)). apply aget_In in Hor; auto.
      * unfold fd, sm_find. rewrite Ei.
        assert (Hil : (i < length (sm_heap m))%nat) by (rewrite Forall_forall in Hb; apply (Hb _ Hyi)).
        rewrite (nth_error_nth' (sm_heap m) sym0 Hil). reflexivity.
    + assert (Hg : aget name_eqb n names2 = if name_eqb n y then None else aget name_eqb n (sm_names m)).
      { rewrite <- (aremove_get name_eqb name_eqb_spec y).
        destruct Hcase as [[_ ->]|(_ & _ & -> & _)]; [reflexivity|]. apply aget_aset_other; auto. }
      rewrite Hg. destruct (name_eqb_spec n y); [reflexivity|]. unfold sm_find.
      destruct (aget name_eqb n (sm_names m)) as [x|] eqn:Ex; [|reflexivity].
      assert (Hxj : x <> j).
      { intros ->. apply Hno. apply aget_In in Ex; auto.
        destruct Hcase as [[_ ->]|(_ & -> & _)].
        - apply aget_In in Hgj; auto. apply aremove_In in Hgj; auto. eapply nodup_snd_inj; [exact Hun|exact Ex|tauto].
        - exfalso. rewrite Forall_forall in Hb. specialize (Hb _ Ex). cbn [snd] in Hb. lia. }
      rewrite nth_set_nth by exact Hjl. destruct (Nat.eqb_spec x j); [congruence|].
      destruct Hcase as [[-> _]|(-> & _)]; [reflexivity|].
      apply nth_error_app1. apply aget_In in Ex; auto. rewrite Forall_forall in Hb. apply (Hb _ Ex).
Qed.

Definition sumof (o : observer) (m : smap) (l : list name) : Z :=
  fold_right Z.add 0 (map (fun x => observe o (fd m x)) l).

Lemma fd_ok m n : smap_ok m -> sym_ok (fd m n).
Proof.
  intros (_ & Hh & _). unfold fd, sm_find. destruct (aget name_eqb n (sm_names m)) as [i|]; [|apply sym0_ok].
  destruct (nth_error (sm_heap m) i) as [s|] eqn:E; [|apply sym0_ok].
  rewrite Forall_forall in Hh. apply Hh. eapply nth_error_In; eauto.
Qed.

Lemma sm_find_keys m n : smap_ok m -> (sm_find m n <> None <-> In n (akeys (sm_names m))).
Proof.
  intros (_ & _ & Hb). unfold sm_find. destruct (aget name_eqb n (sm_names m)) as [i|] eqn:E.
  - apply aget_In in E; auto. split; intros _.
    + apply (in_map fst) in E. exact E.
    + rewrite Forall_forall in Hb. specialize (Hb _ E). cbn [snd] in Hb.
      apply nth_error_Some. exact Hb.
  - apply aget_None_iff in E; auto. split; [congruence|tauto].
Qed.

Lemma elide_all_unshared orig ys : forall m, smap_ok m -> unshared m -> NoDup ys ->
  (forall y, In y ys -> In y (akeys (sm_names m)) /\ orig y <> y /\ ~ In (orig y) ys) ->
  exists m', elide_all_of orig ys m = Ok m' /\ smap_ok m' /\ unshared m' /\
    (forall n, sm_find m' n <> None <->
       ~ In n ys /\ (sm_find m n <> None \/ exists y, In y ys /\ orig y = n)) /\
    (forall o n, ~ In n ys ->
       observe o (fd m' n) mod 2 ^ 64 =
       (observe o (fd m n) + sumof o m (filter (fun y => name_eqb (orig y) n) ys)) mod 2 ^ 64).
Proof.
  induction ys as [|y ys IH]; intros m Hok Hun Hnd Hys.
  - exists m. cbn [elide_all_of filter]. split; [reflexivity|]. split; [exact Hok|]. split; [exact Hun|].
    split.
    + intros n. split; [intros H; split; [intros []|auto]|]. intros [_ [H|(y & [] & _)]]; exact H.
    + intros o n _. unfold sumof. cbn [map fold_right]. rewrite Z.add_0_r. reflexivity.
  - inversion Hnd as [|? ? Hyn Hnd']; subst.
    destruct (Hys y (or_introl eq_refl)) as (Hyk & Hyo & Hyno).
    destruct (elide_one_unshared orig m y Hok Hun Hyk Hyo) as (m1 & E1 & Hok1 & Hun1 & Hf1).
    assert (Hk1 : forall z, In z ys -> In z (akeys (sm_names m1))).
    { intros z Hz. apply sm_find_keys; [exact Hok1|]. rewrite Hf1.
      destruct (name_eqb_spec z (orig y)); [discriminate|].
      destruct (name_eqb_spec z y); [congruence|]. apply sm_find_keys; [exact Hok|].
      apply Hys. right; exact Hz. }
    destruct (IH m1 Hok1 Hun1 Hnd') as (m2 & E2 & Hok2 & Hun2 & Hp2 & Hs2).
    { intros z Hz. destruct (Hys z (or_intror Hz)) as (A & B & C). split; [auto|]. split; [exact B|].
      intros Hi. apply C. right; exact Hi. }
    exists m2. cbn [elide_all_of]. rewrite E1. cbn [obind]. split; [exact E2|]. split; [exact Hok2|].
    split; [exact Hun2|].
    assert (Hfd1 : forall z, z <> orig y -> z <> y -> fd m1 z = fd m z).
    { intros z H1 H2. unfold fd. rewrite Hf1. destruct (name_eqb_spec z (orig y)); [congruence|].
      destruct (name_eqb_spec z y); [congruence|reflexivity]. }
    split.
    + intros n. rewrite Hp2, Hf1. cbn [In].
      destruct (name_eqb_spec n (orig y)) as [->|Hno].
      * split; [|intros [H _]; split; [tauto|left; discriminate]].
        intros [H _]. split; [|right; exists y; auto]. intros [E|Hi]; [congruence|tauto].
      * destruct (name_eqb_spec n y) as [->|Hny].
        -- split; [|intros [H _]; exfalso; apply H; auto].
           intros [_ [H|(z & Hz & E)]]; [congruence|]. exfalso.
           destruct (Hys z (or_intror Hz)) as (_ & _ & C). apply C. left. congruence.
        -- split.
           ++ intros [H [G|(z & Hz & E)]]; (split; [intuition congruence|]); [auto|right; exists z; auto].
           ++ intros [H [G|(z & [Hz|Hz] & E)]]; [split; [tauto|auto]|subst z; congruence|].
              split; [tauto|]. right; exists z; auto.
    + intros o n Hn. cbn [In] in Hn. rewrite Hs2 by tauto. cbn [filter].
      assert (Hext : sumof o m1 (filter (fun z => name_eqb (orig z) n) ys) =
                     sumof o m (filter (fun z => name_eqb (orig z) n) ys)).
      { unfold sumof. f_equal. apply map_ext_in. intros z Hz. apply filter_In in Hz. destruct Hz as [Hz _].
        rewrite Hfd1; [reflexivity| |congruence]. intros ->. apply Hyno. right; exact Hz. }
      rewrite Hext. destruct (name_eqb_spec (orig y) n) as [<-|Hno].
      * assert (Efd : fd m1 (orig y) = merge (fd m (orig y)) (fd m y)).
        { unfold fd at 1. rewrite Hf1. destruct (name_eqb_spec (orig y) (orig y)); [reflexivity|congruence]. }
        rewrite Efd, observe_merge by (apply fd_ok; exact Hok).
        unfold sumof. cbn [map fold_right]. rewrite Zplus_mod_idemp_l. f_equal. lia.
      * rewrite Hfd1 by (intuition congruence). reflexivity.
Qed.

(** *** Idempotent policies *)
Lemma find_dot_None l : find_dot l = None <-> ~ In 46 l.
Proof.
  induction l as [|x l IH]; cbn [find_dot In]; [tauto|].
  destruct (Z.eqb_spec x 46) as [->|H].
  - split; [discriminate|]. intros G; exfalso; apply G; auto.
  - destruct (find_dot l); cbn [option_map]; [|tauto].
    split; [discriminate|]. intros G. exfalso. destruct IH as [_ IH].
    assert (Hn : ~ In 46 l) by (intros Hi; apply G; auto). specialize (IH Hn). discriminate.
Qed.
Lemma find_dot_first l i : find_dot l = Some i -> ~ In 46 (firstn i l).
Proof.
  revert i; induction l as [|x l IH]; cbn [find_dot]; intros i; [discriminate|].
  destruct (Z.eqb_spec x 46) as [->|H].
  - intros E; injection E as <-. intros [].
  - destruct (find_dot l) as [j|]; cbn [option_map]; [|discriminate].
    intros E; injection E as <-. cbn [firstn In]. intros [E|Hi]; [congruence|]. eapply IH; eauto.
Qed.
Lemma orig_all_no_dot n :
  ~ In 46 (GetOriginalName ElideAll n) \/ (starts_with [46] n = true /\ GetOriginalName ElideAll n = n).
Proof.
  cbn [GetOriginalName]. destruct (starts_with [46] n) eqn:E; [auto|]. left.
  destruct (find_dot n) as [i|] eqn:F; [apply find_dot_first; exact F|apply find_dot_None; exact F].
Qed.
Lemma orig_all_idem n : GetOriginalName ElideAll (GetOriginalName ElideAll n) = GetOriginalName ElideAll n.
Proof.
  destruct (orig_all_no_dot n) as [H|[H E]]; [|rewrite E; exact E].
  set (m := GetOriginalName ElideAll n) in *. clearbody m. cbn [GetOriginalName].
  apply find_dot_None in H. rewrite H. destruct (starts_with [46] m); reflexivity.
Qed.
