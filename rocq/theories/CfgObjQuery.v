(** Proofs for C72: frequencies, hot join nodes, statistics, copies. *)
From Verif Require Import Base CfgFreqModel CfgFreqProps CfgObjModel CfgObjSpec CfgObjProofs CfgObjEdges CfgObjRun CfgObjObs.
From Coq Require Import Permutation.

(* ---------------- edges inside a function ---------------- *)

Definition local (a : aedge) : bool := fst (a_src a) =? fst (a_sink a).
Definition ends (a : aedge) : node_name * node_name := (a_src a, a_sink a).

(** No two edges inside a function share both end points; none is
    inter-section. *)
Definition tidy (A : list aedge) : Prop :=
  NoDup (map ends (filter local A)) /\ Forall (fun a => local a = true -> a_isec a = false) A.

Lemma bump_ends s d k w A : map ends (filter local (bump s d k w A)) = map ends (filter local A).
Proof.
  induction A as [|a A IH]; [reflexivity|]. cbn [bump]. destruct (has_key s d k a).
  - cbn [filter]. change (local (AEdge (a_src a) (a_sink a) (a_weight a + w) (a_kind a) (a_isec a))) with (local a). destruct (local a); reflexivity.
  - cbn [filter]. destruct (local a); cbn [map]; rewrite IH; reflexivity.
Qed.
Lemma bump_isec s d k w A : Forall (fun a => local a = true -> a_isec a = false) A ->
  Forall (fun a => local a = true -> a_isec a = false) (bump s d k w A).
Proof.
  induction 1 as [|a A H HA IH]; [constructor|]. cbn [bump]. destruct (has_key s d k a).
  - constructor; [exact H|exact HA].
  - constructor; assumption.
Qed.
Lemma tidy_snoc dbg A s d w k isec : tidy A -> may_create dbg A s d isec -> tidy (A ++ [AEdge s d w k isec]).
Proof.
  intros [T1 T2] M. unfold may_create in M. split.
  - rewrite filter_app. cbn [filter]. unfold local at 2. cbn [a_src a_sink].
    destruct (fst s =? fst d); [|rewrite app_nil_r; exact T1].
    rewrite map_app. cbn [map]. apply NoDup_snoc; [exact T1|].
    intros H. apply in_map_iff in H. destruct H as (a & E & Ha). apply filter_In in Ha. unfold ends in E. cbn in E. injection E as E1 E2.
    exact (proj2 M a (proj1 Ha) (conj E1 E2)).
  - apply Forall_app. split; [exact T2|]. constructor; [|constructor]. unfold local. cbn [a_src a_sink a_isec].
    intros Q. rewrite Q in M. exact (proj1 M).
Qed.
Lemma tidy_edges dbg P h : accepted dbg P h -> tidy (edges h).
Proof.
  induction h as [|o h IH] using rev_ind; intros H.
  - split; [constructor|constructor].
  - apply accepted_snoc in H. destruct H as [H1 H2]. specialize (IH H1). rewrite edges_snoc.
    destruct o as [s d w k isec|s d w k isec|f pred path]; cbn [edge_step accepts] in *.
    + exact (tidy_snoc dbg _ _ _ _ _ _ IH (proj2 (proj2 H2))).
    + pose proof (findi_bump s d k w (edges h)) as FB. destruct (findi (has_key s d k) (edges h)) as [i|].
      * destruct FB as (x & _ & _ & -> & _). destruct IH as [T1 T2]. split; [rewrite bump_ends; exact T1|apply bump_isec; exact T2].
      * destruct FB as [E1 E2]. rewrite E1 in H2. rewrite E2. exact (tidy_snoc dbg _ _ _ _ _ _ IH (proj2 (proj2 H2))).
    + exact IH.
Qed.

(* ---------------- frequencies ---------------- *)

Definition W (A : list aedge) : list wedge := map (fun a => WEdge (a_weight a) (a_kind a)) A.

Lemma W_sum A : wsum (W A) = sum_weights A.
Proof. induction A as [|a A IH]; [reflexivity|]. cbn. unfold wsum, sum_weights, W in *. rewrite IH. reflexivity. Qed.
Lemma W_max A : wmax (W A) = max_weight A.
Proof. induction A as [|a A IH]; [reflexivity|]. cbn. unfold wmax, max_weight, W in *. rewrite IH. reflexivity. Qed.
Lemma W_filter t ta A : (forall a, t (WEdge (a_weight a) (a_kind a)) = ta a) -> filter t (W A) = W (filter ta A).
Proof.
  intros H. induction A as [|a A IH]; [reflexivity|]. cbn [W map filter]. rewrite H. fold (W A).
  destruct (ta a); cbn [W map]; rewrite IH; reflexivity.
Qed.
Lemma W_app A B : W (A ++ B) = W A ++ W B.
Proof. apply map_app. Qed.

Lemma split_filter {X} (t u v : X -> bool) l : (forall x, In x l -> t x = true -> v x = negb (u x)) ->
  Permutation (filter (fun x => t x && v x) l ++ filter (fun x => t x && u x) l) (filter t l).
Proof.
  induction l as [|x l IH]; intros H; [constructor|]. cbn [filter].
  assert (IH' := IH (fun y Hy => H y (or_intror Hy))).
  destruct (t x) eqn:Et; cbn [andb].
  - rewrite (H x (or_introl eq_refl) Et). destruct (u x); cbn [negb app].
    + symmetry. rewrite <- Permutation_middle. constructor. symmetry. exact IH'.
    + constructor. exact IH'.
  - exact IH'.
Qed.

Section Query.
Variables (P : list func) (clf : func -> list nat) (pathf : func -> list (list full_id)) (A : list aedge) (st : state).
Hypothesis V : Inv P clf pathf A st.

Lemma deref_sel t : deref st (sel (s_edges st) t) = filter t (s_edges st).
Proof.
  unfold deref. generalize (s_edges st). intros E. induction E as [|d E IH] using rev_ind; [reflexivity|].
  rewrite sel_snoc, flat_map_app, filter_app. cbn [filter]. f_equal.
  - rewrite <- IH. rewrite !flat_map_concat_map. f_equal. apply map_ext_in. intros i Hi. apply sel_In in Hi.
    destruct Hi as (c & Ec & _). rewrite nth_error_app1 by (apply nth_error_Some; congruence). reflexivity.
  - destruct (t d); [|reflexivity]. cbn [flat_map]. rewrite nth_error_app2, Nat.sub_diag by lia. reflexivity.
Qed.
Lemma wedges_filter t ta : (forall e x, erel P clf e x -> t e = ta x) -> wedges (filter t (s_edges st)) = W (filter ta A).
Proof.
  intros HT. pose proof (v_edges _ _ _ _ _ V) as FE. clear V. induction FE as [|d a l m R FE IH]; [reflexivity|].
  cbn [filter]. rewrite (HT _ _ R). destruct (ta a); [|exact IH]. cbn [wedges map W].
  fold (wedges (filter t l)) (W (filter ta m)). rewrite IH. destruct R as (_ & _ & -> & -> & _). reflexivity.
Qed.

Lemma freq_ok F g p id n : In F P -> cfg_at st (f_index F) = Some g ->
  nth_error (ids (nb F) (clf F)) p = Some id -> nth_error (g_nodes g) p = Some n -> fits A ->
  node_frequency st n = Ok (frequency A (f_index F, id)).
Proof.
  intros HF Hg Hi Hn [FN FX]. destruct (v_fns _ _ _ _ _ V F HF) as (g' & Hg' & I).
  assert (g' = g) as -> by congruence.
  destruct (i_lists _ _ _ _ _ I p n Hn) as (j1 & j2 & j3 & j4). pose proof (pos_rname _ _ F p id HF Hi) as R.
  set (f := f_index F) in *. set (x := (f, id)) in *.
  unfold node_frequency. rewrite j1, j2, j3, j4, !deref_sel.
  rewrite (wedges_filter _ (fun a => from x a && leaving f a)) by
    (intros e y Re; rewrite (src_rel _ _ _ _ _ V _ _ _ R e y Re), (leaving_rel _ _ _ _ _ Re); reflexivity).
  rewrite (wedges_filter _ (fun a => from x a && inside f a)) by
    (intros e y Re; rewrite (src_rel _ _ _ _ _ V _ _ _ R e y Re), (inside_rel _ _ _ _ _ Re); reflexivity).
  rewrite (wedges_filter _ (fun a => to x a && entering f a)) by
    (intros e y Re; rewrite (sink_rel _ _ _ _ _ V _ _ _ R e y Re), (entering_rel _ _ _ _ _ Re); reflexivity).
  rewrite (wedges_filter _ (fun a => to x a && inside f a)) by
    (intros e y Re; rewrite (sink_rel _ _ _ _ _ V _ _ _ R e y Re), (inside_rel _ _ _ _ _ Re); reflexivity).
  assert (PO : Permutation (W (filter (fun a => from x a && leaving f a) A) ++ W (filter (fun a => from x a && inside f a) A)) (W (filter (from x) A))).
  { rewrite <- W_app. apply Permutation_map. apply split_filter. intros a _ Ha. unfold from in Ha.
    destruct (name_eqb_spec (a_src a) x) as [Q|]; [|discriminate]. unfold leaving, inside. rewrite Q. unfold x. cbn [fst].
    rewrite Z.eqb_refl. reflexivity. }
  assert (PI : Permutation (W (filter (fun a => to x a && entering f a) A) ++ W (filter (fun a => to x a && inside f a) A)) (W (filter (to x) A))).
  { rewrite <- W_app. apply Permutation_map. apply split_filter. intros a _ Ha. unfold to in Ha.
    destruct (name_eqb_spec (a_sink a) x) as [Q|]; [|discriminate]. unfold entering, inside. rewrite Q. unfold x. cbn [fst].
    rewrite Z.eqb_refl, !andb_true_r. reflexivity. }
  destruct (FX x) as [B1 B2].
  rewrite C37_frequency_value.
  - f_equal. unfold frequency.
    rewrite (wmax_perm _ _ (filter_perm is_call _ _ PO)), (wsum_perm _ _ (filter_perm (fun e => negb (is_call e)) _ _ PO)).
    rewrite (wmax_perm _ _ (filter_perm is_ret _ _ PI)), (wsum_perm _ _ (filter_perm (fun e => negb (is_ret e)) _ _ PI)).
    rewrite (W_filter is_call (of_kind KCall)) by (intros a; unfold is_call, of_kind; cbn; destruct (a_kind a); reflexivity).
    rewrite (W_filter (fun e => negb (is_call e)) (not_kind KCall)) by (intros a; unfold is_call, not_kind; cbn; destruct (a_kind a); reflexivity).
    rewrite (W_filter is_ret (of_kind KRet)) by (intros a; unfold is_ret, of_kind; cbn; destruct (a_kind a); reflexivity).
    rewrite (W_filter (fun e => negb (is_ret e)) (not_kind KRet)) by (intros a; unfold is_ret, not_kind; cbn; destruct (a_kind a); reflexivity).
    rewrite !W_max, !W_sum. reflexivity.
  - assert (WN : forall t, Forall (fun e => 0 <= we_weight e) (W (filter t A))).
    { intros t. apply Forall_forall. intros e He. apply in_map_iff in He. destruct He as (a & <- & Ha). cbn.
      apply filter_In in Ha. rewrite Forall_forall in FN. apply FN. tauto. }
    rewrite !Forall_app. auto.
  - rewrite (wsum_perm _ _ PO), W_sum. exact B1.
  - rewrite (wsum_perm _ _ PI), W_sum. exact B2.
Qed.

(** Walking over all nodes. *)
Definition node_pairs F g : Prop := Forall2 (fun id n =>
   id = id_of n /\ shows_node F (Z.to_nat (n_index n)) id n /\ In id (ids (nb F) (clf F)) /\
   (fits A -> node_frequency st n = Ok (frequency A (f_index F, id))) /\
   n_intra_ins n = sel (s_edges st) (fun d => nref_eqb (e_sink d) (f_index F, Z.to_nat (n_index n)) && t_inside (f_index F) d) /\
   rname P clf (f_index F, Z.to_nat (n_index n)) (f_index F, id))
  (ids (nb F) (clf F)) (g_nodes g).
Lemma node_pairs_ok F g : In F P -> cfg_at st (f_index F) = Some g -> node_pairs F g.
Proof.
  intros HF Hg. destruct (v_fns _ _ _ _ _ V F HF) as (g' & Hg' & I). assert (g' = g) as -> by congruence.
  unfold node_pairs.
  assert (G : forall (l : list (nat * nat)) (m : list cnode) k, length l = length m ->
     (forall j id n, nth_error l j = Some id -> nth_error m j = Some n -> nth_error (ids (nb F) (clf F)) (k + j) = Some id /\ nth_error (g_nodes g) (k + j) = Some n) ->
     Forall2 (fun id n => exists p, nth_error (ids (nb F) (clf F)) p = Some id /\ nth_error (g_nodes g) p = Some n) l m).
  { induction l as [|id l IHl]; intros [|n m] k HL H; cbn in HL; try discriminate; constructor.
    - exists k. specialize (H 0%nat id n eq_refl eq_refl). rewrite Nat.add_0_r in H. exact H.
    - apply (IHl m (S k)); [lia|]. intros j id' n' H1 H2. specialize (H (S j) id' n' H1 H2).
      replace (S k + j)%nat with (k + S j)%nat by lia. exact H. }
  specialize (G (ids (nb F) (clf F)) (g_nodes g) 0%nat (eq_sym (i_len _ _ _ _ _ I)) (fun j id n a b => conj a b)).
  refine (Forall2_weaken _ _ _ _ _ G). cbv beta. intros id n (p & Hi & Hn).
  pose proof (i_node _ _ _ _ _ I _ _ _ Hi Hn) as SN.
  assert (Z.to_nat (n_index n) = p) as -> by (destruct SN as (_ & _ & Q & _); lia).
  split; [destruct SN as (_ & Q & _); unfold id_of; congruence|]. split; [exact SN|].
  split; [exact (nth_error_In _ _ Hi)|]. split; [intros FT; exact (freq_ok F g p id n HF Hg Hi Hn FT)|].
  split; [apply (i_lists _ _ _ _ _ I p n Hn)|]. exact (pos_rname _ _ F p id HF Hi).
Qed.

(** The hot predecessors of a node, counted by their edges. *)
Definition hot_in (et : Z) (a : aedge) : bool :=
  negb (name_eqb (a_src a) (a_sink a)) && negb (same_kind (a_kind a) KCall) && negb (same_kind (a_kind a) KRet) && (et <=? a_weight a).

Lemma hot_count f p id et : rname P clf (f, p) (f, id) ->
  length (filter (hot_branch et) (filter (fun d => nref_eqb (e_sink d) (f, p) && t_inside f d) (s_edges st))) =
  length (filter (hot_in et) (filter (fun a => to (f, id) a && inside f a) A)).
Proof.
  intros R. pose proof (v_nodup _ _ _ _ _ V) as N.
  assert (T1 : forall e x, erel P clf e x -> nref_eqb (e_sink e) (f, p) && t_inside f e = to (f, id) x && inside f x).
  { intros e x Re. rewrite (sink_rel _ _ _ _ _ V _ _ _ R e x Re), (inside_rel _ _ _ _ _ Re). reflexivity. }
  assert (T2 : forall e x, erel P clf e x -> hot_branch et e = hot_in et x).
  { intros e x (R1 & R2 & R3 & R4 & _). unfold hot_branch, hot_in. rewrite (rname_eqb _ _ _ _ _ _ N R1 R2), R3, R4, !kind_eqb_same. reflexivity. }
  pose proof (v_edges _ _ _ _ _ V) as FE. clear V. induction FE as [|d a l m Re FE IH]; [reflexivity|].
  cbn [filter]. rewrite (T1 _ _ Re). destruct (to (f, id) a && inside f a); [|exact IH].
  cbn [filter]. rewrite (T2 _ _ Re). destruct (hot_in et a); cbn [length]; rewrite IH; reflexivity.
Qed.

Lemma filter_map_comm {X Y} (g : X -> Y) t l : NoDup (map g l) -> NoDup (map g (filter t l)).
Proof.
  induction l as [|x l IH]; intros H; [constructor|]. cbn [map] in H. inversion H as [|? ? N1 N2]; subst. cbn [filter].
  destruct (t x); [|auto]. cbn [map]. constructor; [|auto]. intros Q. apply N1. apply in_map_iff in Q.
  destruct Q as (y & E & Hy). apply filter_In in Hy. rewrite <- E. now apply in_map.
Qed.

Lemma two_preds f id et : tidy A ->
  (2 <= length (filter (hot_in et) (filter (fun a => to (f, id) a && inside f a) A)))%nat <->
  exists y1 y2, y1 <> y2 /\ hot_pred A et (f, id) y1 /\ hot_pred A et (f, id) y2.
Proof.
  intros [T _]. set (L := filter (hot_in et) (filter (fun a => to (f, id) a && inside f a) A)).
  assert (IN : forall a, In a L -> hot_pred A et (f, id) (a_src a) /\ a_sink a = (f, id)).
  { intros a Ha. apply filter_In in Ha. destruct Ha as [Ha Hh]. apply filter_In in Ha. destruct Ha as [Ha Ht].
    apply andb_true_iff in Ht. destruct Ht as [Ht Hi]. unfold to in Ht. destruct (name_eqb_spec (a_sink a) (f, id)) as [Q|]; [|discriminate].
    split; [|exact Q]. unfold hot_in in Hh. rewrite Q in Hh.
    destruct (name_eqb_spec (a_src a) (f, id)) as [|NE]; [discriminate|]. unfold inside in Hi. apply andb_true_iff in Hi.
    split; [exact NE|]. split; [cbn [fst]; lia|]. exists a. split; [exact Ha|]. split; [reflexivity|]. split; [exact Q|].
    destruct (a_kind a); cbn in Hh; try discriminate. split; [reflexivity|lia]. }
  assert (ND : NoDup (map ends L)).
  { assert (Q : L = filter (fun a => hot_in et a && (to (f, id) a && inside f a)) (filter local A)).
    { unfold L. clear. generalize A. intros A0. induction A0 as [|a A0 IH]; [reflexivity|]. cbn [filter].
      unfold local at 1. destruct (to (f, id) a && inside f a) eqn:E.
      - assert (fst (a_src a) =? fst (a_sink a) = true) as ->.
        { apply andb_true_iff in E. destruct E as [_ E]. unfold inside in E. lia. }
        cbn [filter]. rewrite E, andb_true_r. destruct (hot_in et a); rewrite IH; reflexivity.
      - destruct (fst (a_src a) =? fst (a_sink a)); [|exact IH]. cbn [filter]. rewrite E, andb_false_r. exact IH. }
    rewrite Q. apply filter_map_comm. exact T. }
  split.
  - intros HL. destruct L as [|a [|b L']]; cbn [length] in HL; try lia.
    exists (a_src a), (a_src b). destruct (IN a (or_introl eq_refl)) as [Ha Sa]. destruct (IN b (or_intror (or_introl eq_refl))) as [Hb Sb].
    split; [|auto]. intros Q. cbn [map] in ND. inversion ND as [|? ? N1 _]; subst. apply N1. left. unfold ends. congruence.
  - intros (y1 & y2 & NE & H1 & H2).
    assert (G : forall y, hot_pred A et (f, id) y -> exists a, In a L /\ a_src a = y).
    { intros y (Q1 & Q2 & a & Ha & Es & Ed & Ek & Ew). exists a. split; [|exact Es]. apply filter_In. split.
      - apply filter_In. split; [exact Ha|]. unfold to, inside. rewrite Es, Ed. cbn [fst] in *. rewrite Q2, Z.eqb_refl.
        destruct (name_eqb_spec (f, id) (f, id)); [reflexivity|congruence].
      - unfold hot_in. rewrite Es, Ed, Ek. destruct (name_eqb_spec y (f, id)); [congruence|]. cbn. lia. }
    destruct (G _ H1) as (a & Ha & Ea), (G _ H2) as (b & Hb & Eb).
    destruct L as [|c [|c' L']]; [destruct Ha| |cbn [length]; lia]. exfalso.
    destruct Ha as [<-|[]], Hb as [Q|[]]. congruence.
Qed.

Lemma hot_join_ok F g nt et : In F P -> cfg_at st (f_index F) = Some g -> fits A -> tidy A ->
  exists m, GetHotJoinNodes st g nt et = Ok (map fst m) /\ picks (hot_join A (f_index F) nt et) (ids (nb F) (clf F)) m.
Proof.
  intros HF Hg FT TD. unfold GetHotJoinNodes. pose proof (node_pairs_ok F g HF Hg) as NP. unfold node_pairs in NP.
  induction NP as [|id n l m (Q1 & SN & _ & FR & JI & RN) _ IH].
  - exists []. split; [reflexivity|constructor].
  - destruct IH as (r & E & PK). cbn [hot_join_loop]. rewrite E. unfold is_entry.
    assert (n_bb n = fst id) as Qb by (rewrite Q1; reflexivity). rewrite Qb.
    destruct (Nat.eqb_spec (fst id) 0) as [Z0|Z0].
    + exists r. split; [reflexivity|]. constructor 3; [|exact PK]. intros (H & _). congruence.
    + rewrite (FR FT). cbn [obind]. destruct (Z.ltb_spec (frequency A (f_index F, id)) nt) as [Lt|Ge].
      * exists r. split; [reflexivity|]. constructor 3; [|exact PK]. intros (_ & H & _). lia.
      * rewrite JI, deref_sel, (hot_count (f_index F) _ id et RN).
        pose proof (two_preds (f_index F) id et TD) as TP.
        destruct (Nat.leb_spec (length (filter (hot_in et) (filter (fun a => to (f_index F, id) a && inside (f_index F) a) A))) 1) as [L1|L1].
        -- exists r. split; [reflexivity|]. constructor 3; [|exact PK]. intros (_ & _ & H). apply TP in H. lia.
        -- exists (id :: r). cbn [obind map]. split; [reflexivity|]. constructor 2; [|exact PK].
           split; [exact Z0|]. split; [exact Ge|]. apply TP. lia.
Qed.

Definition hot (f : Z) (id : nat * nat) : Prop := frequency A (f, id) <> 0.
Definition blk (F : func) (id : nat * nat) : block := nth (fst id) (f_blocks F) (Block 0 0 0 false 0).

Lemma stats_ok F g : In F P -> cfg_at st (f_index F) = Some g -> fits A ->
  exists a b c,
    GetNodeFrequencyStats st g = Ok (Z.of_nat (length a), Z.of_nat (length b), Z.of_nat (length c)) /\
    picks (fun id => frequency A (f_index F, id) <> 0) (ids (nb F) (clf F)) a /\
    picks (fun id => frequency A (f_index F, id) <> 0 /\ b_size (blk F id) = 0) (ids (nb F) (clf F)) b /\
    picks (fun id => frequency A (f_index F, id) <> 0 /\ b_pad (blk F id) = true) (ids (nb F) (clf F)) c.
Proof.
  intros HF Hg FT. unfold GetNodeFrequencyStats. pose proof (node_pairs_ok F g HF Hg) as NP. unfold node_pairs in NP.
  assert (G : forall x y z, exists a b c,
    stats_loop st (g_nodes g) (x, y, z) = Ok (x + Z.of_nat (length a), y + Z.of_nat (length b), z + Z.of_nat (length c)) /\
    picks (fun id => frequency A (f_index F, id) <> 0) (ids (nb F) (clf F)) a /\
    picks (fun id => frequency A (f_index F, id) <> 0 /\ b_size (blk F id) = 0) (ids (nb F) (clf F)) b /\
    picks (fun id => frequency A (f_index F, id) <> 0 /\ b_pad (blk F id) = true) (ids (nb F) (clf F)) c).
  { induction NP as [|id n l m (Q1 & SN & _ & FR & _ & _) _ IH]; intros x y z.
    - exists [], [], []. cbn. split; [repeat f_equal; lia|]. split; [constructor|]. split; constructor.
    - cbn [stats_loop]. rewrite (FR FT). cbn [obind].
      destruct SN as (_ & _ & _ & _ & B & HB & _ & _ & HS & HP & _).
      assert (blk F id = B) as QB by (unfold blk; exact (nth_error_nth _ _ _ HB)).
      destruct (Z.eqb_spec (frequency A (f_index F, id)) 0) as [Z0|Z0].
      + destruct (IH x y z) as (a & b & c & E & P1 & P2 & P3). exists a, b, c. split; [exact E|].
        split; [constructor 3; [tauto|exact P1]|]. split; (constructor 3; [tauto|assumption]).
      + destruct (IH (x + 1) (if n_size n =? 0 then y + 1 else y) (if n_pad n then z + 1 else z)) as (a & b & c & E & P1 & P2 & P3).
        exists (id :: a), (if n_size n =? 0 then id :: b else b), (if n_pad n then id :: c else c). split.
        { rewrite E. f_equal. f_equal; [f_equal|]; [cbn [length]; lia| |]; [destruct (n_size n =? 0)|destruct (n_pad n)]; cbn [length]; lia. }
        split; [constructor 2; assumption|]. split.
        * destruct (Z.eqb_spec (n_size n) 0); [constructor 2|constructor 3]; try assumption; rewrite QB; [split; congruence|intros [_ Q]; congruence].
        * destruct (n_pad n) eqn:EP; [constructor 2|constructor 3]; try assumption; rewrite QB; [split; congruence|intros [_ Q]; congruence]. }
  destruct (G 0 0 0) as (a & b & c & E & R). exists a, b, c. split; [|exact R]. rewrite E. reflexivity.
Qed.

Lemma pads_ok F g : In F P -> cfg_at st (f_index F) = Some g -> fits A ->
  exists b, has_hot_landing_pads st g = Ok b /\
    (b = true <-> exists id, In id (ids (nb F) (clf F)) /\ b_pad (blk F id) = true /\ frequency A (f_index F, id) <> 0).
Proof.
  intros HF Hg FT. unfold has_hot_landing_pads. pose proof (node_pairs_ok F g HF Hg) as NP. unfold node_pairs in NP.
  destruct (v_fns _ _ _ _ _ V F HF) as (g' & Hg' & I). assert (g' = g) as -> by congruence.
  destruct (Z.eqb_spec (g_pads g) 0) as [Z0|Z0].
  - exists false. split; [reflexivity|]. split; [discriminate|]. intros (id & Hi & Hp & _). exfalso.
    rewrite (i_pads _ _ _ _ _ I) in Z0.
    assert (In id (filter (fun id => b_pad (nth (fst id) (f_blocks F) (Block 0 0 0 false 0))) (ids (nb F) (clf F)))) as Q
      by (apply filter_In; auto).
    destruct (filter _ _); [destruct Q|cbn in Z0; lia].
  - clear Z0. induction NP as [|id n l m (Q1 & SN & _ & FR & _ & _) _ IH].
    + exists false. split; [reflexivity|]. split; [discriminate|]. intros (id & [] & _).
    + destruct IH as (b & E & IH). cbn [hot_pads_loop].
      destruct SN as (_ & _ & _ & _ & B & HB & _ & _ & HS & HP & _).
      assert (blk F id = B) as QB by (unfold blk; exact (nth_error_nth _ _ _ HB)).
      destruct (n_pad n) eqn:EP; cbn [negb].
      * rewrite (FR FT). cbn [obind]. destruct (Z.eqb_spec (frequency A (f_index F, id)) 0) as [Z0|Z0].
        -- exists b. split; [exact E|]. rewrite IH. split.
           ++ intros (j & Hj & R). exists j. split; [now right|exact R].
           ++ intros (j & [<-|Hj] & R); [tauto|]. exists j. auto.
        -- exists true. split; [reflexivity|]. split; [|reflexivity]. intros _. exists id. split; [now left|]. rewrite QB. split; [congruence|exact Z0].
      * exists b. split; [exact E|]. rewrite IH. split.
        -- intros (j & Hj & R). exists j. split; [now right|exact R].
        -- intros (j & [<-|Hj] & R); [rewrite QB in R; destruct R; congruence|]. exists j. auto.
Qed.

Lemma nil_len {X} (l : list X) : is_nil l = false <-> l <> [].
Proof. destruct l; cbn; split; congruence. Qed.
Lemma sel_nonempty t ta : (forall e x, erel P clf e x -> t e = ta x) ->
  sel (s_edges st) t <> [] <-> exists a, In a A /\ ta a = true.
Proof.
  intros HT. pose proof (sel_filter _ _ _ _ _ (v_edges _ _ _ _ _ V) HT) as G. split.
  - intros H. inversion G as [E1 E2|i a l m _ _ E1 E2]; [congruence|]. exists a. apply filter_In. rewrite <- E2. now left.
  - intros (a & Ha & Ht) Q. rewrite Q in G. inversion G as [E1 E2|]. assert (In a (filter ta A)) as H by (apply filter_In; auto).
    rewrite <- E2 in H. exact H.
Qed.

Lemma is_hot_ok F g : In F P -> cfg_at st (f_index F) = Some g ->
  is_hot g = true <-> exists a, In a A /\ (fst (a_src a) = f_index F \/ fst (a_sink a) = f_index F).
Proof.
  intros HF Hg. destruct (v_fns _ _ _ _ _ V F HF) as (g' & Hg' & I). assert (g' = g) as -> by congruence.
  unfold is_hot. rewrite !orb_true_iff, !negb_true_iff, !nil_len.
  rewrite (i_inter _ _ _ _ _ I), (i_intra _ _ _ _ _ I).
  rewrite (sel_nonempty _ _ (leaving_rel _ _ (f_index F))), (sel_nonempty _ _ (inside_rel _ _ (f_index F))).
  split.
  - intros [[(a & Ha & H)|(a & Ha & H)]|H].
    + exists a. split; [exact Ha|]. unfold leaving in H. lia.
    + exists a. split; [exact Ha|]. unfold inside in H. lia.
    + apply existsb_exists in H. destruct H as (n & Hn & H). apply negb_true_iff in H. apply nil_len in H.
      apply In_nth_error in Hn. destruct Hn as [p Hp]. destruct (i_lists _ _ _ _ _ I p n Hp) as (_ & _ & _ & Q). rewrite Q in H.
      destruct (sel _ _) as [|i l] eqn:Es; [congruence|].
      assert (In i (i :: l)) as Hi by now left. rewrite <- Es in Hi. apply sel_In in Hi. destruct Hi as (c & Ec & Hc).
      destruct (Forall2_nth_l _ _ _ (v_edges _ _ _ _ _ V) _ _ Ec) as (x & Ex & Re). exists x. split; [exact (nth_error_In _ _ Ex)|].
      apply andb_true_iff in Hc. rewrite (entering_rel _ _ _ _ _ Re) in Hc. unfold entering in Hc. lia.
  - intros (a & Ha & [H|H]).
    + destruct (Z.eqb_spec (fst (a_sink a)) (f_index F)) as [Q|Q].
      * left. right. exists a. split; [exact Ha|]. unfold inside. lia.
      * left. left. exists a. split; [exact Ha|]. unfold leaving. lia.
    + destruct (Z.eqb_spec (fst (a_src a)) (f_index F)) as [Q|Q].
      * left. right. exists a. split; [exact Ha|]. unfold inside. lia.
      * right. apply In_nth_error in Ha. destruct Ha as [i Hi].
        destruct (Forall2_nth_r _ _ _ (v_edges _ _ _ _ _ V) _ _ Hi) as (c & Ec & Re).
        pose proof Re as (_ & R2 & _). destruct (node_at_rname _ _ _ _ _ V _ _ R2) as (n & Hn & _).
        assert (Es : fst (e_sink c) = f_index F) by (destruct R2 as [Q2 _]; congruence).
        unfold node_at in Hn. rewrite Es, Hg in Hn. apply existsb_exists. exists n. split; [exact (nth_error_In _ _ Hn)|].
        apply negb_true_iff. apply nil_len. destruct (i_lists _ _ _ _ _ I _ n Hn) as (_ & _ & _ & Q4). rewrite Q4.
        intros Q5. assert (In i []); [|assumption]. rewrite <- Q5. apply sel_In. exists c. split; [exact Ec|].
        rewrite (entering_rel _ _ _ _ _ Re). unfold entering. destruct (nref_eqb_spec (e_sink c) (f_index F, snd (e_sink c))) as [|NE].
        -- cbn [andb]. lia.
        -- exfalso. apply NE. rewrite <- Es. destruct (e_sink c); reflexivity.
Qed.
End Query.
