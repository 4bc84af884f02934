(** Proofs for C72: construction, cloning, histories. *)
From Verif Require Import Base CfgFreqModel CfgObjModel CfgObjSpec CfgObjProofs CfgObjEdges.

Lemma read_back_first a : addr_to_int a mod w64 = read_back a.
Proof.
  unfold addr_to_int, read_back, w32, w64. pose proof (Z.mod_pos_bound a 4294967296 ltac:(lia)).
  destruct (Z.ltb_spec (a mod 4294967296) 2147483648); Z.div_mod_to_equations; lia.
Qed.
Lemma read_back_again a : addr_to_int (read_back a) mod w64 = read_back a.
Proof.
  rewrite read_back_first. unfold read_back. pose proof (Z.mod_pos_bound a 4294967296 ltac:(lia)).
  destruct (Z.ltb_spec (a mod 4294967296) 2147483648).
  - rewrite Z.mod_mod by lia. destruct (Z.ltb_spec (a mod 4294967296) 2147483648); lia.
  - replace ((a mod 4294967296 + 18446744069414584320) mod 4294967296) with (a mod 4294967296)
      by (Z.div_mod_to_equations; lia).
    destruct (Z.ltb_spec (a mod 4294967296) 2147483648); lia.
Qed.

Definition bare (n : cnode) : Prop := n_intra_outs n = [] /\ n_intra_ins n = [] /\ n_inter_outs n = [] /\ n_inter_ins n = [].

Lemma clone_shows F p0 b c0 n q c :
  shows_node F p0 (b, c0) n -> (c = 0%nat -> q = b) -> shows_node F q (b, c) (Clone n c (Z.of_nat q)) /\ bare (Clone n c (Z.of_nat q)).
Proof.
  intros (H1 & H2 & H3 & H4 & B & HB & H5 & H6 & H7 & H8 & H9) Hc. injection H2 as H2 _. split; [|cbn; unfold bare; auto].
  unfold shows_node, Clone, new_node, addr. cbn [n_func n_bb n_clone n_index n_freq n_bbid n_addr n_size n_pad n_flags].
  split; [exact H1|]. split; [congruence|]. split.
  { destruct (Nat.eqb_spec c 0) as [E|E]; [rewrite (Hc E); congruence|reflexivity]. }
  split; [reflexivity|]. exists B. cbn [fst] in *. split; [exact HB|]. split; [exact H5|]. split.
  { unfold addr in H6. rewrite H6. apply read_back_again. }
  auto.
Qed.

Lemma clones_at_set b b' l m : clones_at b (aset Nat.eqb b' l m) = if (b =? b')%nat then l else clones_at b m.
Proof. unfold clones_at. rewrite (aget_aset _ Nat.eqb_spec). destruct (b =? b')%nat; reflexivity. Qed.

Section Cloning.
Variables (E : list cedge) (F : func) (L : list (list full_id)).

Lemma clone_step cl g b n :
  finv E F cl L g -> (b < nb F)%nat -> nth_error (g_nodes g) b = Some n ->
  (forall d, In d E -> e_src d <> (f_index F, length (g_nodes g)) /\ e_sink d <> (f_index F, length (g_nodes g))) ->
  let clones := clones_at b (g_clones g) in
  let c := Clone n (length clones + 1) (Z.of_nat (length (g_nodes g))) in
  finv E F (cl ++ [b]) L
    (Cfg (g_section g) (g_index g) (g_module g) (g_names g) (g_nodes g ++ [c])
         (if n_pad c then g_pads g + 1 else g_pads g)
         (aset Nat.eqb b (clones ++ [length (g_nodes g)]) (g_clones g)) (g_paths g) (g_intra g) (g_inter g)) /\
  full_intra_cfg_id c = (block_id F b, (b, S (count_occ Nat.eq_dec cl b))).
Proof.
  intros I Lb Hn Hfresh clones c.
  assert (LC : length clones = count_occ Nat.eq_dec cl b).
  { unfold clones. rewrite (i_clones _ _ _ _ _ I). apply clones_spec. }
  assert (Hid : nth_error (ids (nb F) cl) b = Some (b, 0%nat)) by (apply ids_original; auto).
  pose proof (i_node _ _ _ _ _ I _ _ _ Hid Hn) as SN.
  destruct (clone_shows F b b 0%nat n (length (g_nodes g)) (length clones + 1) SN ltac:(lia)) as [SC BC].
  fold c in SC, BC. replace (length clones + 1)%nat with (S (count_occ Nat.eq_dec cl b)) in SC by lia.
  split.
  - pose proof I as [i1 i2 i3 i4 i5 i6 i7 i8 i9 i10 i11 i12 i13].
    constructor; cbn [g_index g_section g_module g_names g_nodes g_pads g_clones g_paths g_intra g_inter]; try assumption.
    + rewrite ids_snoc, !app_length, i5. reflexivity.
    + intros p id m Hp Hm. rewrite ids_snoc in Hp.
      destruct (Nat.ltb_spec p (length (g_nodes g))) as [Lp|Lp].
      * rewrite nth_error_app1 in Hm by exact Lp. rewrite nth_error_app1 in Hp by lia. exact (i6 _ _ _ Hp Hm).
      * rewrite nth_error_app2 in Hm by exact Lp. rewrite nth_error_app2 in Hp by lia.
        destruct (p - length (g_nodes g))%nat as [|q] eqn:Eq; [|destruct q; discriminate].
        rewrite <- i5, Eq in Hp. cbn in Hp, Hm. injection Hp as <-. injection Hm as <-.
        replace p with (length (g_nodes g)) by lia. exact SC.
    + intros b0. rewrite clones_at_set, ids_snoc, sel_snoc.
      assert (is_clone b0 (b, S (count_occ Nat.eq_dec cl b)) = (b =? b0)%nat) as ->
        by (unfold is_clone; cbn [fst snd Nat.eqb negb]; apply andb_true_r).
      rewrite Nat.eqb_sym. destruct (Nat.eqb_spec b b0) as [->|].
      * unfold clones. rewrite i7, <- i5. reflexivity.
      * rewrite app_nil_r. apply i7.
    + intros b0. rewrite (aget_aset _ Nat.eqb_spec). destruct (b0 =? b)%nat; [|apply i8].
      intros Q. injection Q as Q. destruct clones; discriminate.
    + rewrite ids_snoc, filter_app, app_length. cbn [filter fst].
      destruct SC as (_ & _ & _ & _ & B & HB & _ & _ & _ & HP & _). cbn [fst] in HB.
      rewrite (nth_error_nth _ _ _ HB), HP, i9. destruct (b_pad B); cbn [length]; lia.
    + intros p m Hm. destruct (Nat.ltb_spec p (length (g_nodes g))) as [Lp|Lp].
      * rewrite nth_error_app1 in Hm by exact Lp. exact (i13 _ _ Hm).
      * rewrite nth_error_app2 in Hm by exact Lp.
        destruct (p - length (g_nodes g))%nat as [|q] eqn:Eq; [|destruct q; discriminate].
        cbn in Hm. injection Hm as <-. replace p with (length (g_nodes g)) by lia.
        destruct BC as (-> & -> & -> & ->).
        split; [|split; [|split]]; symmetry; apply sel_none; intros d Hd; destruct (Hfresh d Hd) as [N1 N2];
        match goal with |- (nref_eqb ?x ?y) && _ = false => destruct (nref_eqb_spec x y); [congruence|reflexivity] end.
  - destruct SC as (_ & H2 & _ & _ & B & HB & H5 & _). unfold full_intra_cfg_id, intra_cfg_id. rewrite H2, H5.
    unfold block_id. cbn [fst] in HB. rewrite (nth_error_nth _ _ _ HB). reflexivity.
Qed.

Lemma clone_loop_ok path : forall cl g acc,
  finv E F cl L g -> Forall (fun b => (b < nb F)%nat) path ->
  (forall d p, In d E -> (length (g_nodes g) <= p)%nat -> e_src d <> (f_index F, p) /\ e_sink d <> (f_index F, p)) ->
  exists g', clone_loop g path acc = Ok (g', acc ++ map (fun x => (block_id F (fst x), x)) (numbered cl path)) /\
    finv E F (cl ++ path) L g'.
Proof.
  induction path as [|b path IH]; intros cl g acc I Hp Hf.
  - exists g. cbn. rewrite !app_nil_r. auto.
  - inversion Hp as [|? ? Hb Hp']; subst. cbn [clone_loop numbered map].
    destruct (nth_error (g_nodes g) b) as [n|] eqn:Hn.
    + destruct (clone_step cl g b n I Hb Hn) as [I' EQ].
      { intros d Hd. apply (Hf d _ Hd). lia. }
      cbv zeta in I', EQ. destruct (IH _ _ (acc ++ [full_intra_cfg_id (Clone n (length (clones_at b (g_clones g)) + 1) (Z.of_nat (length (g_nodes g))))]) I' Hp') as (g' & E1 & I'').
      { intros d p Hd Lp. cbn [g_nodes] in Lp. rewrite app_length in Lp. apply (Hf d p Hd). lia. }
      exists g'. rewrite E1. rewrite EQ. cbn [fst]. rewrite <- !app_assoc in *. cbn [app] in *. auto.
    + exfalso. apply nth_error_None in Hn. rewrite (i_len _ _ _ _ _ I), ids_length in Hn. lia.
Qed.
End Cloning.

Lemma Inv_ext P clf clf' pathf pathf' A st :
  (forall F, In F P -> clf F = clf' F) -> (forall F, In F P -> pathf F = pathf' F) ->
  Inv P clf pathf A st -> Inv P clf' pathf' A st.
Proof.
  intros H1 H2 [v1 v2 v3 v4 v5].
  assert (RN : forall r x, rname P clf r x -> rname P clf' r x).
  { intros r x (E & F & HF & EF & T). split; [exact E|]. exists F. rewrite <- (H1 F HF). auto. }
  constructor; auto.
  - intros F HF. rewrite <- (H1 F HF). auto.
  - intros F HF. rewrite <- (H1 F HF), <- (H2 F HF). auto.
  - clear - v5 RN. induction v5 as [|d a l m R FE IH]; constructor; [|exact IH].
    destruct R as (R1 & R2 & R). split; [auto|]. split; [auto|]. exact R.
Qed.

Definition cl_set (clf : func -> list nat) f path : func -> list nat := fun G => if f =? f_index G then clf G ++ path else clf G.

Lemma ids_app_nth n cl path p id : nth_error (ids n cl) p = Some id -> nth_error (ids n (cl ++ path)) p = Some id.
Proof.
  intros H. unfold ids. rewrite numbered_app, app_assoc. rewrite nth_error_app1; [exact H|].
  apply nth_error_Some. unfold ids in H. congruence.
Qed.

Lemma clone_ok P clf pathf A st F pred path :
  Inv P clf pathf A st -> In F P -> (pred < nb F)%nat -> Forall (fun b => (b < nb F)%nat) path ->
  exists g g', cfg_at st (f_index F) = Some g /\ ClonePath g pred path = Ok g' /\
  Inv P (cl_set clf (f_index F) path)
      (fun G => if f_index F =? f_index G
                then pathf G ++ [(block_id G pred, (pred, 0%nat)) :: map (fun x => (block_id G (fst x), x)) (numbered (clf G) path)]
                else pathf G)
      A (State (aset Z.eqb (f_index F) g' (s_cfgs st)) (s_edges st)).
Proof.
  intros V HF Hpred Hpath. pose proof (v_nodup _ _ _ _ _ V) as N.
  destruct (v_fns _ _ _ _ _ V F HF) as (g & Hg & I). exists g.
  assert (Hid : nth_error (ids (nb F) (clf F)) pred = Some (pred, 0%nat)) by (apply ids_original; auto).
  unfold ClonePath. rewrite (get_by_id _ _ _ _ F g _ _ HF I Hid). cbn [obind].
  destruct (nth_error (g_nodes g) pred) as [n|] eqn:En.
  2:{ exfalso. apply nth_error_None in En. rewrite (i_len _ _ _ _ _ I), ids_length in En. lia. }
  pose proof (i_node _ _ _ _ _ I _ _ _ Hid En) as SN.
  assert (FN : full_intra_cfg_id n = (block_id F pred, (pred, 0%nat))).
  { destruct SN as (_ & H2 & _ & _ & B & HB & H5 & _). unfold full_intra_cfg_id, intra_cfg_id. rewrite H2, H5.
    unfold block_id. cbn [fst] in HB. rewrite (nth_error_nth _ _ _ HB). reflexivity. }
  rewrite FN.
  destruct (clone_loop_ok (s_edges st) F (pathf F) path (clf F) g [(block_id F pred, (pred, 0%nat))] I Hpath) as (g' & E1 & I').
  { intros d p Hd Lp. apply In_nth_error in Hd. destruct Hd as [i Hd].
    destruct (Forall2_nth_l _ _ _ (v_edges _ _ _ _ _ V) _ _ Hd) as (x & _ & R1 & R2 & _).
    assert (G : forall r y, rname P clf r y -> r <> (f_index F, p)).
    { intros r y (_ & F' & HF' & EF' & T) ->. cbn [fst snd] in *.
      assert (Q : F' = F) by (apply (func_unique P); auto). rewrite Q in *.
      assert (p < length (ids (nb F) (clf F)))%nat by (apply nth_error_Some; congruence).
      rewrite (i_len _ _ _ _ _ I) in Lp. lia. }
    split; eapply G; eassumption. }
  rewrite E1. cbn [obind].
  eexists. split; [exact Hg|]. split; [reflexivity|].
  assert (RN : forall r x, rname P clf r x -> rname P (cl_set clf (f_index F) path) r x).
  { intros r x (Ex & F' & HF' & EF' & T). split; [exact Ex|]. exists F'. split; [exact HF'|]. split; [exact EF'|].
    unfold cl_set. destruct (f_index F =? f_index F'); [|exact T]. apply ids_app_nth. exact T. }
  constructor; cbn [s_cfgs s_edges].
  - exact N.
  - rewrite aset_keys; [exact (v_keys _ _ _ _ _ V)|]. exact (aget_Some_key _ _ _ Hg).
  - intros G HG. unfold cl_set. destruct (Z.eqb_spec (f_index F) (f_index G)) as [Q|]; [|exact (v_cl _ _ _ _ _ V G HG)].
    assert (G = F) as -> by (apply (func_unique P); auto). apply Forall_app. split; [exact (v_cl _ _ _ _ _ V F HF)|exact Hpath].
  - intros G HG. unfold cfg_at. cbn [s_cfgs]. rewrite aget_aset_z. unfold cl_set.
    destruct (Z.eqb_spec (f_index F) (f_index G)) as [Q|Q].
    + assert (G = F) as -> by (apply (func_unique P); auto). rewrite Z.eqb_refl.
      eexists. split; [reflexivity|]. destruct I' as [i1 i2 i3 i4 i5 i6 i7 i8 i9 i10 i11 i12 i13].
      constructor; cbn [g_index g_section g_module g_names g_nodes g_pads g_clones g_paths g_intra g_inter]; try assumption.
      rewrite i10. reflexivity.
    + destruct (Z.eqb_spec (f_index G) (f_index F)); [congruence|]. exact (v_fns _ _ _ _ _ V G HG).
  - pose proof (v_edges _ _ _ _ _ V) as FE. clear - FE RN. induction FE as [|d a l m R FE IH]; constructor; [|exact IH].
    destruct R as (R1 & R2 & R). split; [auto|]. split; [auto|]. exact R.
Qed.

(* ---------------- construction ---------------- *)

Definition id_of (n : cnode) : nat * nat := (n_bb n, n_clone n).

Lemma sel_NoDup {X} (l : list X) t : NoDup (sel l t).
Proof. unfold sel. apply NoDup_filter. apply seq_NoDup. Qed.

Lemma firstn_snoc_nth {X} (l : list X) p x : nth_error l p = Some x -> firstn (S p) l = firstn p l ++ [x].
Proof.
  revert p. induction l as [|y l IH]; intros [|p] H; cbn in *; try discriminate.
  - injection H as ->. reflexivity.
  - rewrite (IH p H). reflexivity.
Qed.

Lemma clone_prefix n cl p b c : nth_error (ids n cl) p = Some (b, S c) ->
  length (sel (firstn p (ids n cl)) (is_clone b)) = c.
Proof.
  intros H. assert (Lp : (p < length (ids n cl))%nat) by (apply nth_error_Some; congruence).
  pose proof H as H'. apply (proj2 (clones_spec n cl b)) in H'.
  assert (Q : sel (ids n cl) (is_clone b) = sel (firstn (S p) (ids n cl)) (is_clone b) ++
              map (plus (length (firstn (S p) (ids n cl)))) (sel (skipn (S p) (ids n cl)) (is_clone b))).
  { rewrite <- sel_app, firstn_skipn. reflexivity. }
  rewrite (firstn_snoc_nth _ _ _ H), sel_snoc in Q.
  assert (is_clone b (b, S c) = true) as Q1 by (unfold is_clone; cbn; rewrite Nat.eqb_refl; reflexivity).
  rewrite Q1, firstn_length_le in Q by lia. rewrite <- app_assoc in Q. cbn [app] in Q.
  set (k := length (sel (firstn p (ids n cl)) (is_clone b))) in *.
  assert (H2 : nth_error (sel (ids n cl) (is_clone b)) k = Some p).
  { rewrite Q, nth_error_app2 by (unfold k; lia). unfold k. rewrite Nat.sub_diag. reflexivity. }
  apply (proj1 (NoDup_nth_error _) (sel_NoDup (ids n cl) (is_clone b))).
  - apply nth_error_Some. congruence.
  - congruence.
Qed.

Lemma ctor_ok f n cl nodes : forall p clones pads,
  map id_of nodes = skipn p (ids n cl) -> (forall m, In m nodes -> n_func m = f) ->
  (forall b, clones_at b clones = sel (firstn p (ids n cl)) (is_clone b)) ->
  (forall b, aget Nat.eqb b clones <> Some []) -> (p <= length (ids n cl))%nat ->
  exists clones', ctor_loop f (Nat.min p n) p nodes clones pads =
    Ok (clones', pads + Z.of_nat (length (filter n_pad nodes))) /\
    (forall b, clones_at b clones' = sel (ids n cl) (is_clone b)) /\ (forall b, aget Nat.eqb b clones' <> Some []).
Proof.
  induction nodes as [|m nodes IH]; intros p clones pads HM HF HC HS Lp.
  - exists clones. cbn [ctor_loop filter length]. split; [f_equal; f_equal; lia|]. split; [|exact HS].
    intros b. rewrite HC. cbn in HM. symmetry in HM.
    assert (length (skipn p (ids n cl)) = 0)%nat as Q by (rewrite HM; reflexivity). rewrite skipn_length in Q.
    rewrite firstn_all2 by lia. reflexivity.
  - cbn [map] in HM.
    assert (Hp : nth_error (ids n cl) p = Some (id_of m)).
    { rewrite <- (firstn_skipn p (ids n cl)), <- HM. rewrite nth_error_app2 by (rewrite firstn_length; lia).
      rewrite firstn_length_le by lia. rewrite Nat.sub_diag. reflexivity. }
    assert (HM' : map id_of nodes = skipn (S p) (ids n cl)).
    { clear - HM. revert HM. generalize (ids n cl). intros l. revert p. induction l as [|x l IHl]; intros [|p] HM; cbn in *; try discriminate.
      - congruence.
      - apply IHl. exact HM. }
    assert (LS : (S p <= length (ids n cl))%nat) by (apply nth_error_Some; congruence).
    cbn [ctor_loop filter]. rewrite (HF m (or_introl eq_refl)), Z.eqb_refl. cbn [negb].
    destruct (Nat.eqb_spec (n_clone m) 0) as [E0|E0].
    + unfold id_of in Hp. rewrite E0 in Hp. pose proof Hp as Hq. apply ids_original in Hp. destruct Hp as [Ep Lb].
      rewrite <- Ep. replace (Nat.min p n) with p by lia. rewrite Nat.eqb_refl. cbn [negb].
      destruct (IH (S p) clones (if n_pad m then pads + 1 else pads) HM') as (c' & E1 & E2 & E3); auto.
      { intros x Hx. apply HF. now right. }
      { intros b. rewrite (firstn_snoc_nth _ _ _ Hq), sel_snoc, HC. unfold is_clone at 3. cbn [snd Nat.eqb negb].
        rewrite andb_false_r, app_nil_r. reflexivity. }
      replace (Nat.min (S p) n) with (S p) in E1 by lia.
      exists c'. rewrite E1. split; [|auto]. do 2 f_equal. destruct (n_pad m); cbn [length]; lia.
    + unfold id_of in Hp. destruct (n_clone m) as [|c] eqn:Ec; [congruence|].
      assert (Hn : (n <= p)%nat).
      { destruct (Nat.ltb_spec p n) as [Lpn|]; [|lia]. exfalso.
        assert (nth_error (ids n cl) p = Some (p, 0%nat)) by (apply ids_original; auto). congruence. }
      pose proof (clone_prefix _ _ _ _ _ Hp) as CP.
      rewrite HC, app_length. cbn [length]. rewrite CP.
      destruct (Nat.eqb_spec (S c) (c + 1)) as [_|]; [|lia]. cbn [negb].
      replace (Nat.min p n) with (Nat.min (S p) n) by lia.
      destruct (IH (S p) (aset Nat.eqb (n_bb m) (sel (firstn p (ids n cl)) (is_clone (n_bb m)) ++ [p]) clones)
                  (if n_pad m then pads + 1 else pads) HM') as (c' & E1 & E2 & E3); auto.
      { intros x Hx. apply HF. now right. }
      { intros b. rewrite clones_at_set, (firstn_snoc_nth _ _ _ Hp), sel_snoc, HC.
        assert (is_clone b (n_bb m, S c) = (n_bb m =? b)%nat) as -> by (unfold is_clone; cbn [fst snd Nat.eqb negb]; apply andb_true_r).
        rewrite (Nat.eqb_sym b). destruct (Nat.eqb_spec (n_bb m) b) as [->|]; [|rewrite app_nil_r; reflexivity].
        rewrite firstn_length_le by lia. reflexivity. }
      { intros b. rewrite (aget_aset _ Nat.eqb_spec). destruct (b =? n_bb m)%nat; [|apply HS].
        intros Q. injection Q as Q. destruct (sel _ _); discriminate. }
      exists c'. rewrite E1. split; [|auto]. do 2 f_equal. destruct (n_pad m); cbn [length]; lia.
Qed.

Lemma nth_error_ext' {X} (l m : list X) : (forall i, nth_error l i = nth_error m i) -> l = m.
Proof.
  revert m. induction l as [|x l IH]; intros [|y m] H; [reflexivity|specialize (H 0%nat); discriminate|specialize (H 0%nat); discriminate|].
  f_equal; [specialize (H 0%nat); cbn in H; congruence|]. apply IH. intros i. exact (H (S i)).
Qed.

Lemma new_cfg_ok F cl nodes :
  length nodes = length (ids (nb F) cl) ->
  (forall p id n, nth_error (ids (nb F) cl) p = Some id -> nth_error nodes p = Some n -> shows_node F p id n /\ bare n) ->
  exists g, new_cfg (f_section F) (f_index F) (f_module F) (f_names F) nodes = Ok g /\ finv [] F cl [] g.
Proof.
  intros HL HN.
  assert (IDS : map id_of nodes = ids (nb F) cl).
  { apply nth_error_ext'. intros p. rewrite nth_error_map.
    destruct (nth_error nodes p) as [n|] eqn:En.
    - destruct (nth_error (ids (nb F) cl) p) as [id|] eqn:Ei.
      + destruct (HN _ _ _ Ei En) as ((_ & Q & _) & _). cbn. unfold id_of. congruence.
      + apply nth_error_None in Ei. rewrite <- HL in Ei. apply nth_error_None in Ei. congruence.
    - cbn. symmetry. apply nth_error_None. rewrite <- HL. apply nth_error_None. exact En. }
  destruct (ctor_ok (f_index F) (nb F) cl nodes 0 [] 0) as (c' & E1 & E2 & E3).
  - rewrite IDS. reflexivity.
  - intros m Hm. apply In_nth_error in Hm. destruct Hm as [p Hp].
    destruct (nth_error (ids (nb F) cl) p) as [id|] eqn:Ei.
    + destruct (HN _ _ _ Ei Hp) as ((Q & _) & _). exact Q.
    + apply nth_error_None in Ei. rewrite <- HL in Ei. apply nth_error_None in Ei. congruence.
  - intros b. reflexivity.
  - intros b. cbn. discriminate.
  - lia.
  - unfold new_cfg. change (Nat.min 0 (nb F)) with 0%nat in E1. rewrite E1. cbn [obind].
    eexists. split; [reflexivity|].
    constructor; cbn [g_index g_section g_module g_names g_nodes g_pads g_clones g_paths g_intra g_inter]; try reflexivity; auto.
    + intros p id n Hi Hn. apply (HN p id n Hi Hn).
    + rewrite Z.add_0_l. f_equal. rewrite <- IDS.
      assert (G : forall l, (forall m, In m l -> n_pad m = b_pad (nth (n_bb m) (f_blocks F) (Block 0 0 0 false 0))) ->
        length (filter n_pad l) = length (filter (fun id => b_pad (nth (fst id) (f_blocks F) (Block 0 0 0 false 0))) (map id_of l))).
      { induction l as [|m l IHl]; intros H; [reflexivity|]. cbn [map filter]. unfold id_of at 1. cbn [fst].
        rewrite <- (H m (or_introl eq_refl)). destruct (n_pad m); cbn [length]; rewrite IHl; auto; intros x Hx; apply H; now right. }
      apply G. intros m Hm. apply In_nth_error in Hm. destruct Hm as [p Hp].
      destruct (nth_error (ids (nb F) cl) p) as [id|] eqn:Ei.
      * destruct (HN _ _ _ Ei Hp) as ((_ & Q & _ & _ & B & HB & _ & _ & _ & HP & _) & _). rewrite <- Q in HB. cbn [fst] in HB.
        rewrite (nth_error_nth _ _ _ HB). exact HP.
      * apply nth_error_None in Ei. rewrite <- HL in Ei. apply nth_error_None in Ei. congruence.
    + intros p n Hn. assert (exists id, nth_error (ids (nb F) cl) p = Some id) as [id Hi].
      { destruct (nth_error (ids (nb F) cl) p) as [id|] eqn:Ei; [eauto|].
        apply nth_error_None in Ei. rewrite <- HL in Ei. apply nth_error_None in Ei. congruence. }
      destruct (HN _ _ _ Hi Hn) as (_ & b1 & b2 & b3 & b4). rewrite b1, b2, b3, b4. auto.
Qed.

Lemma original_nth f bs : forall k p, nth_error (original_nodes f k bs) p =
  option_map (fun b => new_node (b_addr b) (k + p) (b_id b) (b_size b) (b_pad b) (b_flags b) f 0 0 (-1)) (nth_error bs p).
Proof.
  induction bs as [|b bs IH]; intros k [|p]; cbn; try reflexivity.
  - rewrite Nat.add_0_r. reflexivity.
  - rewrite IH. replace (S k + p)%nat with (k + S p)%nat by lia. reflexivity.
Qed.
Lemma original_len f bs : forall k, length (original_nodes f k bs) = length bs.
Proof. induction bs as [|b bs IH]; intros k; cbn; auto. Qed.

Lemma new_original F : exists g, new_cfg (f_section F) (f_index F) (f_module F) (f_names F)
    (original_nodes (f_index F) 0 (f_blocks F)) = Ok g /\ finv [] F [] [] g.
Proof.
  apply new_cfg_ok.
  - rewrite original_len, ids_length. cbn. lia.
  - intros p id n Hi Hn. rewrite original_nth in Hn. destruct (nth_error (f_blocks F) p) as [B|] eqn:EB; [|discriminate].
    cbn in Hn. injection Hn as <-.
    assert (Lp : (p < nb F)%nat) by (apply nth_error_Some; congruence).
    assert (nth_error (ids (nb F) []) p = Some (p, 0%nat)) as Q by (apply ids_original; auto).
    rewrite Q in Hi. injection Hi as <-.
    split; [|unfold bare; cbn; auto]. unfold shows_node, new_node. cbn. split; [reflexivity|]. split; [reflexivity|].
    split; [reflexivity|]. split; [reflexivity|]. exists B. split; [exact EB|]. split; [reflexivity|]. split; [|auto].
    unfold addr. cbn [n_addr]. apply read_back_first.
Qed.

Lemma init_ok P : NoDup (map f_index P) ->
  exists st, init P = Ok st /\ Inv P (fun _ => []) (fun _ => []) [] st.
Proof.
  intros N.
  assert (G : exists cs, init_cfgs P = Ok cs /\ map fst cs = map f_index P /\
     forall F, In F P -> exists g, aget Z.eqb (f_index F) cs = Some g /\ finv [] F [] [] g).
  { induction P as [|F P IH].
    - exists []. cbn. split; [reflexivity|]. split; [reflexivity|]. intros F [].
    - cbn in N. inversion N as [|? ? NI N']; subst. destruct (IH N') as (cs & E1 & E2 & E3).
      destruct (new_original F) as (g & Eg & I). exists ((f_index F, g) :: cs).
      cbn [init_cfgs]. rewrite Eg. cbn [obind]. rewrite E1. cbn [obind]. split; [reflexivity|].
      split; [cbn; congruence|]. intros G [<-|HG].
      + exists g. cbn [aget]. rewrite Z.eqb_refl. auto.
      + cbn [aget]. destruct (Z.eqb_spec (f_index G) (f_index F)) as [Q|]; [|apply E3; exact HG].
        exfalso. apply NI. rewrite <- Q. now apply in_map. }
  destruct G as (cs & E1 & E2 & E3). exists (State cs []). unfold init. rewrite E1. cbn [obind].
  split; [reflexivity|]. constructor; cbn [s_cfgs s_edges]; auto.
Qed.
