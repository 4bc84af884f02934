(** Proofs for C72: histories, observations, queries, copies. *)
From Verif Require Import Base CfgFreqModel CfgFreqProps CfgObjModel CfgObjSpec CfgObjProofs CfgObjEdges CfgObjRun.
From Coq Require Import Permutation.

Definition HInv (P : list func) (h : list op) (st : state) : Prop :=
  Inv P (fun F => cloned (f_index F) h) (fun F => paths F [] h) (edges h) st.

Lemma cloned_snoc f h o : cloned f (h ++ [o]) = cloned f h ++ cloned f [o].
Proof. unfold cloned. apply flat_map_app. Qed.
Lemma cloned_one f f' pred path : cloned f [OClone f' pred path] = if f =? f' then path else [].
Proof. unfold cloned. cbn [flat_map]. apply app_nil_r. Qed.
Lemma edges_snoc h o : edges (h ++ [o]) = edge_step (edges h) o.
Proof. unfold edges. rewrite fold_left_app. reflexivity. Qed.
Lemma paths_app F h : forall before o, paths F before (h ++ [o]) = paths F before h ++ paths F (before ++ h) [o].
Proof.
  induction h as [|x h IH]; intros before o.
  - cbn [app]. rewrite app_nil_r. reflexivity.
  - cbn [app paths]. rewrite IH, <- !app_assoc. reflexivity.
Qed.

Lemma has_node_rname P h st x : HInv P h st ->
  has_node P h x <-> exists r, rname P (fun F => cloned (f_index F) h) r x.
Proof.
  intros V. destruct x as [f [b c]]. split.
  - intros (F & HF & EF & L1 & L2). cbn [fst snd] in *.
    pose proof (v_cl _ _ _ _ _ V F HF) as Hcl. cbv beta in Hcl.
    assert (In (b, c) (ids (nb F) (cloned (f_index F) h))) as HI by (apply (ids_In _ _ _ _ Hcl); rewrite EF; auto).
    apply In_nth_error in HI. destruct HI as [p Hp]. exists (f, p). split; [reflexivity|]. exists F. auto.
  - intros ([f' p] & E & F & HF & EF & T). cbn [fst snd] in *. exists F. split; [exact HF|].
    pose proof (v_cl _ _ _ _ _ V F HF) as Hcl. cbv beta in Hcl.
    apply nth_error_In in T. apply (ids_In _ _ _ _ Hcl) in T. cbn [fst snd]. rewrite EF in T. rewrite E. tauto.
Qed.

Lemma exists_src_dec A s d : (forall a, In a A -> ~ (a_src a = s /\ a_sink a = d)) \/ ~ (forall a, In a A -> ~ (a_src a = s /\ a_sink a = d)).
Proof.
  destruct (existsb (fun a => name_eqb (a_src a) s && name_eqb (a_sink a) d) A) eqn:E.
  - right. apply existsb_exists in E. destruct E as (a & Ha & Hm). intros H. apply (H a Ha).
    destruct (name_eqb_spec (a_src a) s), (name_eqb_spec (a_sink a) d); try discriminate. auto.
  - left. intros a Ha [H1 H2].
    assert (existsb (fun a => name_eqb (a_src a) s && name_eqb (a_sink a) d) A = true); [|congruence].
    apply existsb_exists. exists a. split; [exact Ha|].
    destruct (name_eqb_spec (a_src a) s), (name_eqb_spec (a_sink a) d); try congruence. reflexivity.
Qed.
Lemma may_create_dec dbg A s d isec : may_create dbg A s d isec \/ ~ may_create dbg A s d isec.
Proof.
  unfold may_create. destruct (fst s =? fst d).
  - destruct isec; [right; intros [Q _]; discriminate|].
    destruct (exists_src_dec A s d) as [Y|Y]; [left; auto|right; intros [_ Q]; exact (Y Q)].
  - destruct dbg; [|left; discriminate].
    destruct (exists_src_dec A s d) as [Y|Y]; [left; auto|right; intros Q; exact (Y (Q eq_refl))].
Qed.

Lemma HInv_ext P h clf pathf A st o :
  Inv P clf pathf A st ->
  (forall F, In F P -> clf F = cloned (f_index F) (h ++ [o])) ->
  (forall F, In F P -> pathf F = paths F [] (h ++ [o])) -> A = edges (h ++ [o]) -> HInv P (h ++ [o]) st.
Proof. intros V H1 H2 ->. exact (Inv_ext P _ _ _ _ _ _ H1 H2 V). Qed.

Lemma step_spec dbg P h st o : HInv P h st ->
  (accepts dbg P h o -> exists st', step dbg st o = Ok st' /\ HInv P (h ++ [o]) st') /\
  (documented P [o] -> forall st', step dbg st o = Ok st' -> accepts dbg P h o).
Proof.
  intros V. destruct o as [s d w k isec|s d w k isec|f pred path].
  - assert (EXT : forall F, cloned (f_index F) h = cloned (f_index F) (h ++ [OCreate s d w k isec]))
      by (intros F; rewrite cloned_snoc; cbn; rewrite app_nil_r; reflexivity).
    assert (EXP : forall F, paths F [] h = paths F [] (h ++ [OCreate s d w k isec]))
      by (intros F; rewrite paths_app; cbn; rewrite app_nil_r; reflexivity).
    cbn [step accepts]. split.
    + intros (Hs & Hd & M). apply (has_node_rname P h st s V) in Hs. apply (has_node_rname P h st d V) in Hd.
      destruct Hs as [a Ra], Hd as [b Rb].
      rewrite (proj2 (lookup_ok _ _ _ _ _ V s a) Ra). cbn [obind].
      rewrite (proj2 (lookup_ok _ _ _ _ _ V d b) Rb). cbn [obind].
      assert (fst s = fst a) as -> by apply Ra.
      rewrite (proj1 (create_spec _ _ _ _ _ V dbg a b s d w k isec Ra Rb) M). eexists. split; [reflexivity|].
      apply (HInv_ext P h _ _ _ _ _ (create_inv _ _ _ _ _ V a b s d w k isec Ra Rb)); auto. rewrite edges_snoc. reflexivity.
    + intros _ st' H. destruct (lookup st s) as [a| |] eqn:Ls; cbn [obind] in H; try discriminate.
      destruct (lookup st d) as [b| |] eqn:Ld; cbn [obind] in H; try discriminate.
      apply (lookup_ok _ _ _ _ _ V) in Ls. apply (lookup_ok _ _ _ _ _ V) in Ld.
      split; [apply (has_node_rname P h st s V); eauto|]. split; [apply (has_node_rname P h st d V); eauto|].
      destruct (may_create_dec dbg (edges h) s d isec) as [M|M]; [exact M|]. exfalso.
      assert (fst s = fst a) as Q by apply Ls. rewrite Q, (proj2 (create_spec _ _ _ _ _ V dbg a b s d w k isec Ls Ld) M) in H. discriminate.
  - assert (EXT : forall F, cloned (f_index F) h = cloned (f_index F) (h ++ [OUpdate s d w k isec]))
      by (intros F; rewrite cloned_snoc; cbn; rewrite app_nil_r; reflexivity).
    assert (EXP : forall F, paths F [] h = paths F [] (h ++ [OUpdate s d w k isec]))
      by (intros F; rewrite paths_app; cbn; rewrite app_nil_r; reflexivity).
    cbn [step accepts]. split.
    + intros (Hs & Hd & M). apply (has_node_rname P h st s V) in Hs. apply (has_node_rname P h st d V) in Hd.
      destruct Hs as [a Ra], Hd as [b Rb].
      rewrite (proj2 (lookup_ok _ _ _ _ _ V s a) Ra). cbn [obind].
      rewrite (proj2 (lookup_ok _ _ _ _ _ V d b) Rb). cbn [obind].
      assert (fst s = fst a) as -> by apply Ra.
      destruct (proj1 (update_spec _ _ _ _ _ V dbg a b s d w k isec Ra Rb) M) as (st' & E & V').
      exists st'. split; [exact E|]. apply (HInv_ext P h _ _ _ _ _ V'); auto. rewrite edges_snoc. reflexivity.
    + intros _ st' H. destruct (lookup st s) as [a| |] eqn:Ls; cbn [obind] in H; try discriminate.
      destruct (lookup st d) as [b| |] eqn:Ld; cbn [obind] in H; try discriminate.
      apply (lookup_ok _ _ _ _ _ V) in Ls. apply (lookup_ok _ _ _ _ _ V) in Ld.
      split; [apply (has_node_rname P h st s V); eauto|]. split; [apply (has_node_rname P h st d V); eauto|].
      assert (fst s = fst a) as Q by apply Ls. rewrite Q in H.
      pose proof (proj2 (update_spec _ _ _ _ _ V dbg a b s d w k isec Ls Ld)) as U. cbn zeta in U.
      destruct (find (has_key s d k) (edges h)) as [x|].
      * unfold int_ok in *. destruct (Z.leb_spec (-2147483648) (a_weight x + w)); [|exfalso; apply (U ltac:(lia) st' H)].
        destruct (Z.leb_spec (a_weight x + w) 2147483647); [lia|exfalso; apply (U ltac:(lia) st' H)].
      * destruct (may_create_dec dbg (edges h) s d isec) as [M|M]; [exact M|]. exfalso. exact (U M st' H).
  - cbn [step accepts]. split.
    + intros (F & HF & EF & L1 & L2). destruct (clone_ok P _ _ _ st F pred path V HF L1 L2) as (g & g' & Hg & E & V').
      rewrite <- EF, Hg, E. cbn [obind]. eexists. split; [reflexivity|].
      apply (HInv_ext P h _ _ _ _ _ V').
      * intros G HG. unfold cl_set. rewrite cloned_snoc, cloned_one, (Z.eqb_sym (f_index G)).
        destruct (f_index F =? f_index G); [reflexivity|rewrite app_nil_r; reflexivity].
      * intros G HG. rewrite paths_app. cbn [paths app]. destruct (Z.eqb_spec (f_index F) (f_index G)) as [Q|].
        -- rewrite Q. reflexivity.
        -- cbn [app]. rewrite app_nil_r. reflexivity.
      * rewrite edges_snoc. reflexivity.
    + intros HD st' H. destruct (cfg_at st f) as [g|] eqn:Eg; [|discriminate].
      destruct (cfg_in _ _ _ _ _ V _ _ Eg) as (F & HF & EF & I). exists F. split; [exact HF|]. split; [exact EF|].
      split; [|exact (HD f pred path (or_introl eq_refl) F HF EF)].
      destruct (Nat.ltb_spec pred (nb F)) as [L|L]; [exact L|]. exfalso.
      unfold ClonePath in H. rewrite (get_by_id_none _ _ _ _ _ V F g _ HF I) in H; [discriminate|].
      intros HI. apply (ids_In _ _ _ _ (v_cl _ _ _ _ _ V F HF)) in HI. lia.
Qed.

Lemma run_app dbg h1 h2 : forall st, run dbg st (h1 ++ h2) = obind (run dbg st h1) (fun s => run dbg s h2).
Proof.
  induction h1 as [|o h1 IH]; intros st; [reflexivity|]. cbn [app run].
  destruct (step dbg st o); cbn [obind]; auto.
Qed.

Lemma accepted_snoc dbg P h o : accepted dbg P (h ++ [o]) <-> accepted dbg P h /\ accepts dbg P h o.
Proof.
  split.
  - intros H. split.
    + intros h1 x h2 ->. apply (H h1 x (h2 ++ [o])). rewrite <- app_assoc. reflexivity.
    + apply (H h o []). reflexivity.
  - intros [H1 H2] a x b E. destruct b as [|y b] using rev_ind.
    + apply app_inj_tail in E. destruct E as [-> ->]. exact H2.
    + rewrite app_comm_cons, app_assoc in E. apply app_inj_tail in E. destruct E as [-> _].
      apply (H1 a x b). reflexivity.
Qed.

Lemma session_inv dbg P h : NoDup (map f_index P) -> accepted dbg P h ->
  exists st, session dbg P h = Ok st /\ HInv P h st.
Proof.
  intros N. induction h as [|o h IH] using rev_ind; intros H.
  - destruct (init_ok P N) as (st & E & V). exists st. unfold session. rewrite E. cbn [obind run]. split; [reflexivity|exact V].
  - apply accepted_snoc in H. destruct H as [H1 H2]. destruct (IH H1) as (st & E & V).
    destruct (proj1 (step_spec dbg P h st o V) H2) as (st' & E' & V'). exists st'. split; [|exact V'].
    unfold session in *. destruct (init P) as [s0| |]; cbn [obind] in *; try discriminate.
    rewrite run_app, E. cbn [obind run]. rewrite E'. reflexivity.
Qed.

Lemma session_accepted dbg P h st : NoDup (map f_index P) -> documented P h -> session dbg P h = Ok st -> accepted dbg P h.
Proof.
  intros N. revert st. induction h as [|o h IH] using rev_ind; intros st HD E.
  - intros h1 x h2 Q. destruct h1; discriminate.
  - apply accepted_snoc.
    assert (exists s1, session dbg P h = Ok s1 /\ step dbg s1 o = Ok st) as (s1 & E1 & E2).
    { unfold session in *. destruct (init P) as [s0| |]; cbn [obind] in *; try discriminate.
      rewrite run_app in E. destruct (run dbg s0 h) as [s1| |]; cbn [obind] in E; try discriminate.
      exists s1. split; [reflexivity|]. cbn [run] in E. destruct (step dbg s1 o); cbn [obind] in E; congruence. }
    assert (AC : accepted dbg P h).
    { apply (IH s1); [|exact E1]. intros f pred path Hi. apply (HD f pred path). apply in_or_app. auto. }
    split; [exact AC|]. destruct (session_inv dbg P h N AC) as (s2 & E3 & V).
    assert (s2 = s1) as -> by congruence.
    apply (proj2 (step_spec dbg P h s1 o V)) with (st' := st); [|exact E2].
    intros f pred path [Hi|[]]. apply (HD f pred path). apply in_or_app. right. left. exact Hi.
Qed.

(* ---------------- observations ---------------- *)

Lemma sel_cons {X} (x : X) l t : sel (x :: l) t = (if t x then [0%nat] else []) ++ map S (sel l t).
Proof. change (x :: l) with ([x] ++ l). rewrite sel_app. cbn [length]. f_equal. Qed.

Lemma sel_filter {X Y} (R : X -> Y -> Prop) E A t ta : Forall2 R E A -> (forall e x, R e x -> t e = ta x) ->
  Forall2 (fun i a => exists d, nth_error E i = Some d /\ R d a) (sel E t) (filter ta A).
Proof.
  intros H HT. induction H as [|e a E A r FE IH]; [constructor|].
  rewrite sel_cons. cbn [filter]. rewrite (HT _ _ r).
  assert (G : Forall2 (fun i x => exists d, nth_error (e :: E) i = Some d /\ R d x) (map S (sel E t)) (filter ta A)).
  { clear - IH. induction IH as [|i x l m (d & H1 & H2) _ IH]; [constructor|]. cbn [map]. constructor; [|exact IH]. exists d. auto. }
  destruct (ta a); cbn [app]; [|exact G]. constructor; [|exact G]. exists e. auto.
Qed.

Lemma Forall2_weaken {X Y} (R Q : X -> Y -> Prop) l m : (forall x y, R x y -> Q x y) -> Forall2 R l m -> Forall2 Q l m.
Proof. intros H. induction 1; constructor; auto. Qed.

Section Obs.
Variables (P : list func) (clf : func -> list nat) (pathf : func -> list (list full_id)) (A : list aedge) (st : state).
Hypothesis V : Inv P clf pathf A st.

Lemma obs_edges t ta : (forall e x, erel P clf e x -> t e = ta x) -> shows_edges st (sel (s_edges st) t) (filter ta A).
Proof.
  intros HT. pose proof (sel_filter _ _ _ _ _ (v_edges _ _ _ _ _ V) HT) as G. unfold shows_edges.
  refine (Forall2_weaken _ _ _ _ _ G). cbv beta. intros i a (d & H1 & R1 & R2 & R3 & R4 & R5). exists d. split; [exact H1|].
  split; [exact (node_at_rname _ _ _ _ _ V _ _ R1)|]. split; [exact (node_at_rname _ _ _ _ _ V _ _ R2)|]. auto.
Qed.

Lemma src_rel f p id : rname P clf (f, p) (f, id) -> forall e x, erel P clf e x -> nref_eqb (e_src e) (f, p) = from (f, id) x.
Proof. intros R e x (R1 & _). exact (rname_eqb _ _ _ _ _ _ (v_nodup _ _ _ _ _ V) R1 R). Qed.
Lemma sink_rel f p id : rname P clf (f, p) (f, id) -> forall e x, erel P clf e x -> nref_eqb (e_sink e) (f, p) = to (f, id) x.
Proof. intros R e x (_ & R1 & _). exact (rname_eqb _ _ _ _ _ _ (v_nodup _ _ _ _ _ V) R1 R). Qed.

Lemma pos_rname F p id : In F P -> nth_error (ids (nb F) (clf F)) p = Some id -> rname P clf (f_index F, p) (f_index F, id).
Proof. intros HF H. split; [reflexivity|]. exists F. auto. Qed.

Lemma obs_all F : In F P -> exists g, cfg_at st (f_index F) = Some g /\
  shows_cfg st g F (ids (nb F) (clf F)) (pathf F) A.
Proof.
  intros HF. destruct (v_fns _ _ _ _ _ V F HF) as (g & Hg & I). exists g. split; [exact Hg|].
  pose proof I as [i1 i2 i3 i4 i5 i6 i7 i8 i9 i10 i11 i12 i13].
  unfold shows_cfg. split; [exact i1|]. split; [exact i2|]. split; [exact i3|]. split; [exact i4|]. split.
  { assert (G : forall l k, (forall j n, nth_error l j = Some n -> exists id, nth_error (ids (nb F) (clf F)) (k + j) = Some id /\ shows_node F (k + j) id n) ->
        Forall2 (fun p n => exists id, nth_error (ids (nb F) (clf F)) p = Some id /\ shows_node F p id n) (seq k (length l)) l).
    { induction l as [|n l IHl]; intros k H; [constructor|]. cbn [length seq]. constructor.
      - specialize (H 0%nat n eq_refl). rewrite Nat.add_0_r in H. exact H.
      - apply IHl. intros j m Hj. specialize (H (S j) m Hj). replace (k + S j)%nat with (S k + j)%nat in H by lia. exact H. }
    rewrite <- i5. apply G. cbn [plus]. intros j n Hn.
    destruct (nth_error (ids (nb F) (clf F)) j) as [id|] eqn:Ei; [eauto|].
    apply nth_error_None in Ei. rewrite <- i5 in Ei. apply nth_error_None in Ei. congruence. }
  split; [intros id p Hp; exact (get_by_id _ _ _ _ F g p id HF I Hp)|].
  split; [intros id Hn; exact (get_by_id_none _ _ _ _ _ V F g id HF I Hn)|].
  split.
  { intros b Hb. apply In_nth_error in Hb. destruct Hb as [p Hp].
    exists (p :: clones_at b (g_clones g)). unfold GetAllClonesForBbIndex.
    rewrite (get_by_id _ _ _ _ F g p _ HF I Hp). cbn [obind]. split; [reflexivity|].
    rewrite i7. intros [|c] q.
    - cbn [nth_error]. split; [intros E; injection E as <-; exact Hp|]. intros Hq. f_equal. exact (ids_inj _ _ _ _ _ Hp Hq).
    - cbn [nth_error]. apply (proj2 (clones_spec _ _ _)). }
  split; [exact i9|]. split; [exact i10|].
  split; [rewrite i11; apply obs_edges; apply inside_rel|]. split; [rewrite i12; apply obs_edges; apply leaving_rel|].
  intros p id n Hi Hn. cbv zeta. destruct (i13 p n Hn) as (j1 & j2 & j3 & j4). rewrite j1, j2, j3, j4.
  pose proof (pos_rname F p id HF Hi) as R.
  split; [|split; [|split]]; apply obs_edges; intros e y Re;
  rewrite ?(src_rel _ _ _ R e y Re), ?(sink_rel _ _ _ R e y Re), ?(inside_rel _ _ _ _ _ Re), ?(leaving_rel _ _ _ _ _ Re), ?(entering_rel _ _ _ _ _ Re); reflexivity.
Qed.
End Obs.
