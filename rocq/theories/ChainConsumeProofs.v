(** Proofs about the merge callback: consuming bundles in assembly order,
    removing intra-bundle edges and sorting. *)
From Verif Require Import Base ISort ForcedModel ChainModel ChainSpec ChainAsmProofs.

(** The mapper agrees with a list of bundles. *)
Definition mapok (E : env) (mp : Z -> option (Z * Z)) (bs : list bundle) : Prop :=
  forall b n, In b bs -> In n (b_nodes b) -> mp n = Some (b_id b, pos (e_size E) (b_nodes b) n).
Definition bundle_sane (E : env) (b : bundle) : Prop :=
  b_nodes b <> [] /\ b_size b = tot (e_size E) (b_nodes b) /\ b_freq b = tot (e_freq E) (b_nodes b).
Definition srcok (bs : list bundle) : Prop := forall b e, In b bs -> In e (b_edges b) -> In (ce_src e) (b_nodes b).

Lemma rev_last {A} (l : list A) p r : rev l = p :: r -> l = rev r ++ [p] /\ removelast l = rev r.
Proof.
  intros H. assert (Q : l = rev r ++ [p]) by (rewrite <- (rev_involutive l), H; reflexivity). split; [exact Q|]. rewrite Q. apply removelast_last.
Qed.

Lemma consume_ok E rb cid bs : forall ms off idx mp R mp',
  consume E rb cid bs ms off idx mp = (R, mp') ->
  bundles_ok E cid 0 0 ms -> off = tot (e_size E) (flat_map b_nodes ms) -> idx = zlen ms ->
  Forall (bundle_sane E) bs -> mapok E mp (ms ++ bs) -> NoDup (flat_map b_nodes (ms ++ bs)) ->
  bundles_ok E cid 0 0 R /\
  flat_map b_nodes R = flat_map b_nodes (ms ++ bs) /\ flat_map b_edges R = flat_map b_edges (ms ++ bs) /\
  mapok E mp' R /\ (forall n, ~ In n (flat_map b_nodes bs) -> mp' n = mp n) /\
  (NoDup (map b_id (ms ++ bs)) -> NoDup (map b_id R)) /\ incl (map b_id R) (map b_id (ms ++ bs)) /\
  (forall b, In b (ms ++ bs) -> exists b', In b' R /\ incl (b_nodes b) (b_nodes b')) /\
  (srcok (ms ++ bs) -> srcok R) /\
  zlen R <= zlen ms + zlen bs /\ (zlen R = zlen ms + zlen bs -> forall n, mp' n = mp n).
Proof.
  induction bs as [|b bs IH]; intros ms off idx mp R mp' HC OKm Ho Hi SA MO ND; cbn [consume] in HC.
  - injection HC as <- <-. rewrite app_nil_r in MO, ND |- *. change (zlen (@nil bundle)) with 0.
    split; [exact OKm|]. split; [reflexivity|]. split; [reflexivity|]. split; [exact MO|]. split; [reflexivity|]. split; [auto|]. split; [apply incl_refl|].
    split; [|split; [auto|split; [lia|reflexivity]]].
    intros b Hb. exists b. split; [exact Hb|apply incl_refl].
  - inversion SA as [|? ? Sb SA']; subst. destruct Sb as [Sn [Ss Sf]].
    destruct (if rb then match rev ms with
                         | p :: _ => if e_func E (hd 0 (b_nodes p)) =? e_func E (hd 0 (b_nodes b)) then Some p else None
                         | [] => None end else None) as [p|] eqn:Hp.
    + destruct rb; [|discriminate]. destruct (rev ms) as [|p' r] eqn:Hr; [discriminate|].
      destruct (e_func E (hd 0 (b_nodes p')) =? e_func E (hd 0 (b_nodes b))); [|discriminate]. injection Hp as ->.
      apply rev_last in Hr as [Qm Qr]. rewrite Qr in HC. set (m0 := rev r) in *. clearbody m0. clear r Qr. subst ms.
      set (mp1 := fun n => if existsb (Z.eqb n) (b_nodes b) then match mp n with Some (_, o) => Some (b_id p, o + b_size p) | None => Some (b_id p, b_size p) end else mp n) in HC.
      pose proof OKm as OKm0. apply bundles_ok_app in OKm as [OK0 OKp]. inversion OKp as [|? ? ? ? Pc Pi Po Pn Ps Pf _]; subst.
      assert (N1 : flat_map b_nodes ((m0 ++ [bundle_merge p b]) ++ bs) = flat_map b_nodes ((m0 ++ [p]) ++ b :: bs)).
      { rewrite <- !app_assoc, !flat_map_app. cbn [app flat_map bundle_merge b_nodes]. rewrite <- !app_assoc. reflexivity. }
      assert (N2 : flat_map b_edges ((m0 ++ [bundle_merge p b]) ++ bs) = flat_map b_edges ((m0 ++ [p]) ++ b :: bs)).
      { rewrite <- !app_assoc, !flat_map_app. cbn [app flat_map bundle_merge b_edges]. rewrite <- !app_assoc. reflexivity. }
      assert (Dpb : forall n, In n (b_nodes p) -> ~ In n (b_nodes b)).
      { rewrite <- app_assoc, flat_map_app in ND. apply NoDup_app_inv in ND as [_ [ND _]]. cbn [app flat_map] in ND. apply NoDup_app_inv in ND as [_ [_ D]].
        intros n Hn Hb. apply (D n Hn). apply in_app_iff. left. exact Hb. }
      assert (Dob : forall b' n, In b' m0 \/ In b' bs -> In n (b_nodes b') -> ~ In n (b_nodes b)).
      { rewrite <- app_assoc, flat_map_app in ND. apply NoDup_app_inv in ND as [_ [ND D]]. cbn [app flat_map] in ND, D. apply NoDup_app_inv in ND as [_ [ND _]]. apply NoDup_app_inv in ND as [_ [_ D2]].
        intros b' n [H|H] Hn Hb.
        - apply (D n); [apply in_flat_map; exists b'; auto|]. rewrite !in_app_iff. auto.
        - apply (D2 n Hb). apply in_flat_map. exists b'. auto. }
      assert (MP1 : forall n, In n (b_nodes b) -> mp1 n = Some (b_id p, pos (e_size E) (b_nodes b) n + b_size p)).
      { intros n Hn. unfold mp1. fold (memz n (b_nodes b)). assert (memz n (b_nodes b) = true) as -> by (apply memz_In; exact Hn).
        rewrite (MO b n) by (try exact Hn; rewrite !in_app_iff; cbn; auto). reflexivity. }
      assert (MP2 : forall n, ~ In n (b_nodes b) -> mp1 n = mp n).
      { intros n Hn. unfold mp1. fold (memz n (b_nodes b)). assert (memz n (b_nodes b) = false) as -> by (apply memz_false; exact Hn). reflexivity. }
      specialize (IH (m0 ++ [bundle_merge p b]) (tot (e_size E) (flat_map b_nodes (m0 ++ [p])) + b_size b) (zlen (m0 ++ [p])) mp1 R mp' HC).
      assert (A1 : bundles_ok E (b_chain p) 0 0 (m0 ++ [bundle_merge p b])).
      { apply bundles_ok_app. split; [exact OK0|]. constructor; cbn [bundle_merge b_chain b_index b_offset b_nodes b_size b_freq]; auto.
        - destruct (b_nodes p); [contradiction|discriminate].
        - rewrite tot_app. lia.
        - rewrite tot_app. lia.
        - constructor. }
      assert (A4 : mapok E mp1 ((m0 ++ [bundle_merge p b]) ++ bs)).
      { intros b' n Hb Hn. rewrite !in_app_iff in Hb. cbn [In] in Hb. destruct Hb as [[Hb|[<-|[]]]|Hb].
        - rewrite MP2 by (eapply Dob; eauto). apply MO; [rewrite !in_app_iff; auto|exact Hn].
        - cbn [bundle_merge b_nodes b_id] in *. apply in_app_iff in Hn as [Hn|Hn].
          + rewrite MP2 by (apply Dpb; exact Hn). rewrite pos_app_l by exact Hn. apply MO; [rewrite !in_app_iff; cbn; auto|exact Hn].
          + rewrite MP1 by exact Hn. rewrite pos_app_r by (intros H; exact (Dpb n H Hn)). f_equal. f_equal. lia.
        - rewrite MP2 by (eapply Dob; eauto). apply MO; [rewrite !in_app_iff; cbn; auto|exact Hn]. }
      rewrite N1, N2 in IH.
      destruct IH as [B1 [B2 [B3 [B4 [B5 [B6 [B7 [B8 [B9 [B10 B11]]]]]]]]]]; auto.
      { rewrite !flat_map_app, !tot_app. cbn [flat_map bundle_merge b_nodes]. rewrite !app_nil_r, tot_app. lia. }
      { rewrite !zlen_app, !zlen_cons. reflexivity. }
      assert (IDS : map b_id ((m0 ++ [bundle_merge p b]) ++ bs) = map b_id (m0 ++ [p]) ++ map b_id bs).
      { rewrite !map_app. reflexivity. }
      assert (IDS2 : map b_id ((m0 ++ [p]) ++ b :: bs) = map b_id (m0 ++ [p]) ++ b_id b :: map b_id bs) by (rewrite map_app; reflexivity).
      assert (LQ : zlen (m0 ++ [bundle_merge p b]) = zlen (m0 ++ [p])) by (rewrite !zlen_app, !zlen_cons; reflexivity). rewrite LQ in *. rewrite zlen_cons.
      split; [exact B1|]. split; [exact B2|]. split; [exact B3|]. split; [exact B4|]. split.
      { intros n Hn. cbn [flat_map] in Hn. rewrite in_app_iff in Hn. rewrite B5 by tauto. apply MP2. tauto. }
      split.
      { intros H. apply B6. rewrite IDS. rewrite IDS2 in H. apply NoDup_remove_1 in H. exact H. }
      split.
      { intros x Hx. apply B7 in Hx. rewrite IDS in Hx. rewrite IDS2. rewrite in_app_iff in *. cbn [In]. tauto. }
      split.
      { intros b' Hb. rewrite !in_app_iff in Hb. cbn [In] in Hb. destruct Hb as [[Hb|[<-|[]]]|[<-|Hb]].
        - apply B8. rewrite !in_app_iff. auto.
        - destruct (B8 (bundle_merge p b)) as [x [X1 X2]]; [rewrite !in_app_iff; cbn; auto|]. exists x. split; [exact X1|]. intros n Hn. apply X2. apply in_app_iff. auto.
        - destruct (B8 (bundle_merge p b)) as [x [X1 X2]]; [rewrite !in_app_iff; cbn; auto|]. exists x. split; [exact X1|]. intros n Hn. apply X2. apply in_app_iff. auto.
        - apply B8. rewrite !in_app_iff. auto. }
      split.
      { intros HS. apply B9. intros b' e Hb He. rewrite !in_app_iff in Hb. cbn [In] in Hb. destruct Hb as [[Hb|[<-|[]]]|Hb].
        - apply HS; [rewrite !in_app_iff; auto|exact He].
        - cbn [bundle_merge b_edges b_nodes] in *. apply in_app_iff. apply in_app_iff in He as [He|He]; [left|right]; apply HS; auto; rewrite !in_app_iff; cbn; auto.
        - apply HS; [rewrite !in_app_iff; cbn; auto|exact He]. }
      split; [lia|]. intros H. exfalso. lia.
    + clear Hp. set (b1 := set_mapping b cid (zlen ms) (tot (e_size E) (flat_map b_nodes ms))) in HC.
      specialize (IH (ms ++ [b1]) (tot (e_size E) (flat_map b_nodes ms) + b_size b) (zlen ms + 1) mp R mp' HC).
      assert (N1 : flat_map b_nodes ((ms ++ [b1]) ++ bs) = flat_map b_nodes (ms ++ b :: bs)) by (rewrite <- app_assoc; cbn [app]; rewrite !flat_map_app; reflexivity).
      assert (N2 : flat_map b_edges ((ms ++ [b1]) ++ bs) = flat_map b_edges (ms ++ b :: bs)) by (rewrite <- app_assoc; cbn [app]; rewrite !flat_map_app; reflexivity).
      assert (IDS : map b_id ((ms ++ [b1]) ++ bs) = map b_id (ms ++ b :: bs)) by (rewrite <- app_assoc; cbn [app]; rewrite !map_app; reflexivity).
      assert (INb : forall b', In b' ((ms ++ [b1]) ++ bs) -> In b' (ms ++ b :: bs) \/ b' = b1) by (intros b'; rewrite !in_app_iff; cbn; intuition).
      assert (INc : forall b', In b' (ms ++ b :: bs) -> In b' ((ms ++ [b1]) ++ bs) \/ b' = b) by (intros b'; rewrite !in_app_iff; cbn; intuition).
      assert (A4 : mapok E mp ((ms ++ [b1]) ++ bs)).
      { intros b' n Hb Hn. destruct (INb b' Hb) as [H|H]; [apply MO; assumption|]. subst b'. apply (MO b n); [rewrite in_app_iff; cbn; auto|exact Hn]. }
      rewrite N1, N2, IDS in IH.
      destruct IH as [B1 [B2 [B3 [B4 [B5 [B6 [B7 [B8 [B9 [B10 B11]]]]]]]]]]; auto.
      { apply bundles_ok_app. split; [exact OKm|]. constructor; try reflexivity; try assumption. constructor. }
      { rewrite flat_map_app, tot_app. cbn [flat_map]. rewrite app_nil_r. unfold b1, set_mapping. cbn [b_nodes]. lia. }
      { rewrite zlen_app, zlen_cons, zlen_nil. lia. }
      rewrite zlen_app, !zlen_cons, zlen_nil in *.
      split; [exact B1|]. split; [exact B2|]. split; [exact B3|]. split; [exact B4|]. split.
      { intros n Hn. apply B5. cbn [flat_map] in Hn. rewrite in_app_iff in Hn. tauto. }
      split; [exact B6|]. split; [exact B7|]. split.
      { intros b' Hb. destruct (INc b' Hb) as [H|H]; [apply B8; exact H|]. subst b'. apply (B8 b1). rewrite !in_app_iff. cbn; auto. }
      split.
      { intros HS. apply B9. intros b' e Hb He. destruct (INb b' Hb) as [H|H]; [apply HS; assumption|]. subst b'. apply (HS b e); [rewrite in_app_iff; cbn; auto|exact He]. }
      split; [lia|]. intros H. apply B11. lia.
Qed.

(** * Removing the edges inside bundles *)
Definition apartm (mp : Z -> option (Z * Z)) (e : cedge) : bool :=
  match mp (ce_src e), mp (ce_sink e) with Some (b1, _), Some (b2, _) => negb (b1 =? b2) | _, _ => false end.
Definition moff (mp : Z -> option (Z * Z)) (n : Z) : Z := match mp n with Some (_, o) => o | None => 0 end.
Definition mdist (E : env) (mp : Z -> option (Z * Z)) (e : cedge) : Z := moff mp (ce_sink e) - moff mp (ce_src e) - e_size E (ce_src e).
Lemma remove_intra_ok E mp es : (forall e, In e es -> mp (ce_src e) <> None /\ mp (ce_sink e) <> None) ->
  remove_intra E mp es = Ok (filter (apartm mp) es, sumf (fun e => e_score E e (mdist E mp e)) (filter (fun e => negb (apartm mp e)) es)).
Proof.
  induction es as [|e es IH]; intros H; [reflexivity|]. cbn [remove_intra filter].
  destruct (H e (or_introl eq_refl)) as [H1 H2]. rewrite IH by (intros; apply H; right; assumption). cbn [obind].
  destruct (mp (ce_src e)) as [[b1 o1]|] eqn:M1; [|congruence]. destruct (mp (ce_sink e)) as [[b2 o2]|] eqn:M2; [|congruence].
  assert (A : apartm mp e = negb (b1 =? b2)) by (unfold apartm; rewrite M1, M2; reflexivity).
  assert (D : mdist E mp e = o2 - o1 - e_size E (ce_src e)) by (unfold mdist, moff; rewrite M1, M2; reflexivity).
  rewrite A. destruct (b1 =? b2); cbn [negb]; [|reflexivity]. rewrite sumf_cons, D. f_equal. f_equal. lia.
Qed.
Definition keep_apart (mp : Z -> option (Z * Z)) (b : bundle) : bundle := set_edges b (filter (apartm mp) (b_edges b)).
Lemma remove_bundles_ok E mp bs : (forall e, In e (flat_map b_edges bs) -> mp (ce_src e) <> None /\ mp (ce_sink e) <> None) ->
  remove_intra_bundles E mp bs = Ok (map (keep_apart mp) bs, sumf (fun e => e_score E e (mdist E mp e)) (filter (fun e => negb (apartm mp e)) (flat_map b_edges bs))).
Proof.
  induction bs as [|b bs IH]; intros H; [reflexivity|]. cbn [remove_intra_bundles flat_map map] in *.
  rewrite remove_intra_ok by (intros; apply H; apply in_app_iff; left; assumption). cbn [obind].
  rewrite IH by (intros; apply H; apply in_app_iff; right; assumption). cbn [obind]. rewrite filter_app, sumf_app. reflexivity.
Qed.
Lemma keep_apart_edges mp bs : flat_map b_edges (map (keep_apart mp) bs) = filter (apartm mp) (flat_map b_edges bs).
Proof. induction bs as [|b bs IH]; [reflexivity|]. cbn [map flat_map]. rewrite filter_app, IH. reflexivity. Qed.
