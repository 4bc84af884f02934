(** C72: the control-flow-graph objects after any history of calls. *)
From Verif Require Import Base CfgFreqModel CfgFreqProps CfgObjModel CfgObjSpec CfgObjProofs CfgObjEdges CfgObjRun CfgObjObs CfgObjQuery.
From Coq Require Import Permutation.

(** Exactly the acceptable histories run to the end. *)
Theorem C72_accepts : forall dbg P h, NoDup (map f_index P) -> documented P h ->
  (exists st, session dbg P h = Ok st) <-> accepted dbg P h.
Proof.
  intros dbg P h N HD. split.
  - intros [st E]. exact (session_accepted dbg P h st N HD E).
  - intros H. destruct (session_inv dbg P h N H) as (st & E & _). eauto.
Qed.

(** What can be observed then. *)
Theorem C72_observe : forall dbg P h st, NoDup (map f_index P) -> documented P h ->
  session dbg P h = Ok st ->
  map fst (s_cfgs st) = map f_index P /\
  forall F, In F P -> exists g, cfg_at st (f_index F) = Some g /\
    shows_cfg st g F (node_ids F h) (paths F [] h) (edges h).
Proof.
  intros dbg P h st N HD E. pose proof (session_accepted dbg P h st N HD E) as AC.
  destruct (session_inv dbg P h N AC) as (st' & E' & V). assert (st' = st) as -> by congruence.
  split; [exact (v_keys _ _ _ _ _ V)|]. intros F HF. exact (obs_all _ _ _ _ _ V F HF).
Qed.

(** The ids are pairwise different, and are those of [has_node]. *)
Theorem C72_ids : forall dbg P h F, NoDup (map f_index P) -> In F P -> accepted dbg P h ->
  NoDup (node_ids F h) /\ (forall id, In id (node_ids F h) <-> has_node P h (f_index F, id)).
Proof.
  intros dbg P h F N HF AC. destruct (session_inv dbg P h N AC) as (st & _ & V). split.
  - apply NoDup_nth_error. intros i j Li Ei. destruct (nth_error (node_ids F h) i) as [id|] eqn:E1; [|apply nth_error_None in E1; lia].
    symmetry in Ei. exact (ids_inj _ _ _ _ _ E1 Ei).
  - intros id. rewrite (has_node_rname P h st _ V). split.
    + intros H. apply In_nth_error in H. destruct H as [p Hp]. exists (f_index F, p). exact (pos_rname _ _ F p id HF Hp).
    + intros (r & Q & F' & HF' & EF & T). cbn [fst snd] in *.
      assert (F' = F) as -> by (apply (func_unique P); auto; congruence). exact (nth_error_In _ _ T).
Qed.

(** The edges, in closed form, when they are all made by CreateOrUpdateEdge:
    one per (source, sink, kind) asked for, with the sum of the weights. *)
Definition asks (s d : node_name) (k : edge_kind) (o : op) : bool :=
  match o with OUpdate s' d' _ k' _ => name_eqb s' s && name_eqb d' d && same_kind k' k | _ => false end.
Definition asked (o : op) : Z := match o with OUpdate _ _ w _ _ => w | _ => 0 end.
Definition total_asked (s d : node_name) (k : edge_kind) (h : list op) : Z :=
  fold_right (fun o t => asked o + t) 0 (filter (asks s d k) h).
Definition key (a : aedge) : node_name * node_name * edge_kind := (a_src a, a_sink a, a_kind a).

Lemma key_asks s d k a : has_key s d k a = true <-> key a = (s, d, k).
Proof.
  unfold has_key, key. destruct (name_eqb_spec (a_src a) s), (name_eqb_spec (a_sink a) d), (same_kind_spec (a_kind a) k); cbn; split; congruence.
Qed.
Lemma bump_keys s d k w A : map key (bump s d k w A) = map key A.
Proof. induction A as [|a A IH]; [reflexivity|]. cbn [bump]. destruct (has_key s d k a); cbn [map]; [reflexivity|]. rewrite IH. reflexivity. Qed.

Lemma total_snoc s d k h o : total_asked s d k (h ++ [o]) = total_asked s d k h + (if asks s d k o then asked o else 0).
Proof.
  unfold total_asked. rewrite filter_app. cbn [filter].
  assert (G : forall l m, fold_right (fun o t => asked o + t) 0 (l ++ m) = fold_right (fun o t => asked o + t) 0 l + fold_right (fun o t => asked o + t) 0 m).
  { intros l m. induction l as [|x l IH]; cbn [app fold_right]; [lia|]. rewrite IH. lia. }
  rewrite G. destruct (asks s d k o); cbn [fold_right]; lia.
Qed.

Lemma edges_total h : (forall s d w k i, ~ In (OCreate s d w k i) h) ->
  NoDup (map key (edges h)) /\
  (forall a, In a (edges h) -> a_weight a = total_asked (a_src a) (a_sink a) (a_kind a) h) /\
  (forall s d k, (exists a, In a (edges h) /\ key a = (s, d, k)) <-> exists w i, In (OUpdate s d w k i) h).
Proof.
  induction h as [|o h IH] using rev_ind; intros H.
  - cbn. split; [constructor|]. split; [intros a []|]. intros s d k. split; [intros (a & [] & _)|intros (w & i & [])].
  - destruct IH as (I1 & I2 & I3). { intros s d w k i Hi. apply (H s d w k i). apply in_or_app. auto. }
    rewrite edges_snoc. destruct o as [s d w k i|s d w k i|f pred path].
    + exfalso. apply (H s d w k i). apply in_or_app. right. now left.
    + cbn [edge_step]. destruct (existsb (has_key s d k) (edges h)) eqn:EX.
      * split; [rewrite bump_keys; exact I1|]. split.
        -- intros a Ha. rewrite total_snoc.
           assert (G : forall A, NoDup (map key A) -> (forall x, In x A -> a_weight x = total_asked (a_src x) (a_sink x) (a_kind x) h) ->
              In a (bump s d k w A) -> a_weight a = total_asked (a_src a) (a_sink a) (a_kind a) h + (if asks (a_src a) (a_sink a) (a_kind a) (OUpdate s d w k i) then w else 0)).
           { clear. induction A as [|x A IHA]; intros ND HW HI; [destruct HI|]. cbn [map] in ND. inversion ND as [|? ? N1 N2]; subst.
             assert (AS : forall y, asks (a_src y) (a_sink y) (a_kind y) (OUpdate s d w k i) = has_key s d k y).
             { intros y. cbn [asks]. unfold has_key.
               destruct (name_eqb_spec s (a_src y)), (name_eqb_spec (a_src y) s); try congruence; cbn [andb]; try reflexivity.
               destruct (name_eqb_spec d (a_sink y)), (name_eqb_spec (a_sink y) d); try congruence; cbn [andb]; try reflexivity.
               destruct (same_kind_spec k (a_kind y)), (same_kind_spec (a_kind y) k); congruence. }
             cbn [bump] in HI. destruct (has_key s d k x) eqn:EK.
             - destruct HI as [<-|HI].
               + rewrite AS. change (has_key s d k (AEdge (a_src x) (a_sink x) (a_weight x + w) (a_kind x) (a_isec x))) with (has_key s d k x).
                 rewrite EK. cbn [a_weight a_src a_sink a_kind]. rewrite (HW x (or_introl eq_refl)). reflexivity.
               + rewrite AS. destruct (has_key s d k a) eqn:EA; [|rewrite (HW a (or_intror HI)); lia].
                 exfalso. apply key_asks in EK, EA. apply N1. rewrite EK, <- EA. now apply in_map.
             - destruct HI as [<-|HI].
               + rewrite AS, EK, (HW x (or_introl eq_refl)). lia.
               + apply IHA; auto. intros y Hy. apply HW. now right. }
           exact (G _ I1 I2 Ha).
        -- intros s' d' k'. transitivity (exists a, In a (edges h) /\ key a = (s', d', k')).
           { split; intros (a & Ha & E).
             - assert (In (key a) (map key (bump s d k w (edges h)))) as Q by now apply in_map. rewrite bump_keys in Q.
               apply in_map_iff in Q. destruct Q as (x & E' & Hx). exists x. split; [exact Hx|congruence].
             - assert (In (key a) (map key (edges h))) as Q by now apply in_map. rewrite <- (bump_keys s d k w) in Q.
               apply in_map_iff in Q. destruct Q as (x & E' & Hx). exists x. split; [exact Hx|congruence]. }
           rewrite I3. split; intros (w' & i' & Hi).
           { exists w', i'. apply in_or_app. auto. }
           apply in_app_or in Hi. destruct Hi as [Hi|[Hi|[]]]; [eauto|]. injection Hi as -> -> -> -> ->.
           apply I3. apply existsb_exists in EX. destruct EX as (a & Ha & Hk). exists a. split; [exact Ha|]. now apply key_asks.
      * assert (NEW : forall a, In a (edges h) -> key a <> (s, d, k)).
        { intros a Ha Q. apply key_asks in Q. assert (existsb (has_key s d k) (edges h) = true); [|congruence]. apply existsb_exists. eauto. }
        split.
        { rewrite map_app. cbn [map]. apply NoDup_snoc; [exact I1|]. intros Q. apply in_map_iff in Q. destruct Q as (a & E & Ha).
          exact (NEW a Ha E). }
        split.
        -- intros a Ha. rewrite total_snoc. apply in_app_or in Ha. destruct Ha as [Ha|[<-|[]]].
           ++ rewrite (I2 a Ha). destruct (asks (a_src a) (a_sink a) (a_kind a) (OUpdate s d w k i)) eqn:EA; [|lia]. exfalso.
              cbn [asks] in EA. apply (NEW a Ha). unfold key.
              destruct (name_eqb_spec s (a_src a)), (name_eqb_spec d (a_sink a)), (same_kind_spec k (a_kind a)); try discriminate. congruence.
           ++ cbn [a_weight a_src a_sink a_kind asks asked]. destruct (name_eqb_spec s s), (name_eqb_spec d d), (same_kind_spec k k); try congruence.
              cbn [andb].
              assert (total_asked s d k h = 0); [|lia]. unfold total_asked.
              assert (filter (asks s d k) h = []) as ->; [|reflexivity].
              destruct (filter (asks s d k) h) as [|y l] eqn:EF; [reflexivity|]. exfalso.
              assert (In y (filter (asks s d k) h)) as Hy by (rewrite EF; now left). apply filter_In in Hy. destruct Hy as [Hy Ay].
              destruct y as [|s' d' w' k' i'|]; cbn [asks] in Ay; try discriminate.
              destruct (name_eqb_spec s' s) as [->|], (name_eqb_spec d' d) as [->|], (same_kind_spec k' k) as [->|]; try discriminate.
              destruct (proj2 (I3 s d k)) as (a & Ha & E); [eauto|]. exact (NEW a Ha E).
        -- intros s' d' k'. split.
           ++ intros (a & Ha & E). apply in_app_or in Ha. destruct Ha as [Ha|[<-|[]]].
              ** destruct (proj1 (I3 s' d' k')) as (w' & i' & Hi); [eauto|]. exists w', i'. apply in_or_app. auto.
              ** unfold key in E. cbn in E. injection E as <- <- <-. exists w, i. apply in_or_app. right. now left.
           ++ intros (w' & i' & Hi). apply in_app_or in Hi. destruct Hi as [Hi|[Hi|[]]].
              ** destruct (proj2 (I3 s' d' k')) as (a & Ha & E); [eauto|]. exists a. split; [apply in_or_app; auto|exact E].
              ** injection Hi as -> -> -> -> ->. eexists. split; [apply in_or_app; right; left; reflexivity|]. reflexivity.
    + cbn [edge_step]. split; [exact I1|]. split.
      * intros a Ha. rewrite total_snoc, (I2 a Ha). cbn [asks]. lia.
      * intros s d k. rewrite I3. split; intros (w & i & Hi); exists w, i.
        -- apply in_or_app. auto.
        -- apply in_app_or in Hi. destruct Hi as [Hi|[Hi|[]]]; [exact Hi|discriminate].
Qed.

Theorem C72_weights : forall h, (forall s d w k i, ~ In (OCreate s d w k i) h) ->
  NoDup (map key (edges h)) /\
  (forall a, In a (edges h) -> a_weight a = total_asked (a_src a) (a_sink a) (a_kind a) h) /\
  (forall s d k, (exists a, In a (edges h) /\ key a = (s, d, k)) <-> exists w i, In (OUpdate s d w k i) h).
Proof. exact edges_total. Qed.

(** Frequencies, hot join nodes and statistics are those of the edges. *)
Theorem C72_queries : forall dbg P h st, NoDup (map f_index P) -> documented P h ->
  session dbg P h = Ok st -> fits (edges h) ->
  forall F g, In F P -> cfg_at st (f_index F) = Some g ->
  let A := edges h in let I := node_ids F h in
  let blk id := nth (fst id) (f_blocks F) (Block 0 0 0 false 0) in
  Forall2 (fun id n => node_frequency st n = Ok (frequency A (f_index F, id))) I (g_nodes g) /\
  (forall nt et, exists m, GetHotJoinNodes st g nt et = Ok (map fst m) /\ picks (hot_join A (f_index F) nt et) I m) /\
  (exists a b c,
     GetNodeFrequencyStats st g = Ok (Z.of_nat (length a), Z.of_nat (length b), Z.of_nat (length c)) /\
     picks (fun id => frequency A (f_index F, id) <> 0) I a /\
     picks (fun id => frequency A (f_index F, id) <> 0 /\ b_size (blk id) = 0) I b /\
     picks (fun id => frequency A (f_index F, id) <> 0 /\ b_pad (blk id) = true) I c) /\
  (exists b, has_hot_landing_pads st g = Ok b /\
     (b = true <-> exists id, In id I /\ b_pad (blk id) = true /\ frequency A (f_index F, id) <> 0)) /\
  (is_hot g = true <-> exists a, In a A /\ (fst (a_src a) = f_index F \/ fst (a_sink a) = f_index F)).
Proof.
  intros dbg P h st N HD E FT F g HF Hg A I blk'. pose proof (session_accepted dbg P h st N HD E) as AC.
  destruct (session_inv dbg P h N AC) as (st' & E' & V). assert (st' = st) as -> by congruence.
  split.
  { pose proof (node_pairs_ok _ _ _ _ _ V F g HF Hg) as NP. refine (Forall2_weaken _ _ _ _ _ NP).
    cbv beta. intros id n (_ & _ & _ & FR & _). exact (FR FT). }
  split; [intros nt et; exact (hot_join_ok _ _ _ _ _ V F g nt et HF Hg FT (tidy_edges dbg P h AC))|].
  split; [exact (stats_ok _ _ _ _ _ V F g HF Hg FT)|].
  split; [exact (pads_ok _ _ _ _ _ V F g HF Hg FT)|].
  exact (is_hot_ok _ _ _ _ _ V F g HF Hg).
Qed.

Lemma picks_fun {X} (K : X -> Prop) l m m' : picks K l m -> picks K l m' -> m = m'.
Proof. intros H. revert m'. induction H; intros m' H'; inversion H'; subst; try reflexivity; try contradiction; [f_equal|]; auto. Qed.

(** The hot join nodes of the whole program, whatever order the hash map is
    walked in: the functions with at least one. *)
Theorem C72_program_hot_join : forall dbg P h st order nt et, NoDup (map f_index P) -> documented P h ->
  session dbg P h = Ok st -> fits (edges h) -> Permutation order (s_cfgs st) ->
  exists M, program_hot_join st nt et order = Ok M /\
    forall f l, In (f, l) M <->
      l <> [] /\ exists F m, In F P /\ f_index F = f /\ l = map fst m /\
                   picks (hot_join (edges h) f nt et) (node_ids F h) m.
Proof.
  intros dbg P h st order nt et N HD E FT PM. pose proof (session_accepted dbg P h st N HD E) as AC.
  destruct (session_inv dbg P h N AC) as (st' & E' & V). assert (st' = st) as -> by congruence.
  assert (KN : NoDup (map fst (s_cfgs st))) by (rewrite (v_keys _ _ _ _ _ V); exact N).
  assert (HO : forall f g, In (f, g) order -> exists F m, In F P /\ f_index F = f /\
     GetHotJoinNodes st g nt et = Ok (map fst m) /\ picks (hot_join (edges h) f nt et) (node_ids F h) m).
  { intros f g Hi. apply (Permutation_in _ PM) in Hi.
    assert (cfg_at st f = Some g) as Hg by (exact (aget_NoDup_In _ Z.eqb_spec _ _ _ KN Hi)).
    destruct (cfg_in _ _ _ _ _ V f g Hg) as (F & HF & EF & _). subst f.
    destruct (hot_join_ok _ _ _ _ _ V F g nt et HF Hg FT (tidy_edges dbg P h AC)) as (m & E1 & PK). exists F, m. auto. }
  assert (HA : forall F, In F P -> In (f_index F) (map fst order)).
  { intros F HF. apply (Permutation_in _ (Permutation_map fst (Permutation_sym PM))). rewrite (v_keys _ _ _ _ _ V). now apply in_map. }
  assert (G : exists M, program_hot_join st nt et order = Ok M /\
     forall f l, In (f, l) M <-> l <> [] /\ exists g, In (f, g) order /\ GetHotJoinNodes st g nt et = Ok l).
  { clear PM HA. induction order as [|[f g] order IH].
    - exists []. split; [reflexivity|]. intros f l. split; [intros []|]. intros (_ & g & [] & _).
    - destruct (HO f g (or_introl eq_refl)) as (F & m & _ & _ & Em & _).
      destruct IH as (M & EM & HM). { intros f' g' Hi. apply HO. now right. }
      cbn [program_hot_join]. rewrite Em. cbn [obind]. rewrite EM. cbn [obind].
      eexists. split; [reflexivity|]. intros f' l'.
      destruct (map fst m) as [|b l] eqn:El.
      + rewrite HM. split.
        * intros (NE & g' & Hi & Hg'). split; [exact NE|]. exists g'. split; [now right|exact Hg'].
        * intros (NE & g' & [Q|Hi] & Hg'); [injection Q as <- <-; congruence|]. split; [exact NE|]. eauto.
      + split.
        * intros [Q|Hi]; [injection Q as <- <-; split; [discriminate|]; exists g; split; [now left|exact Em]|].
          apply HM in Hi. destruct Hi as (NE & g' & Hi & Hg'). split; [exact NE|]. exists g'. split; [now right|exact Hg'].
        * intros (NE & g' & [Q|Hi] & Hg'); [injection Q as <- <-; left; congruence|]. right. apply HM. split; [exact NE|]. eauto. }
  destruct G as (M & EM & HM). exists M. split; [exact EM|]. intros f l. rewrite HM. split.
  - intros (NE & g & Hi & Hg). split; [exact NE|]. destruct (HO f g Hi) as (F & m & HF & EF & E1 & PK). exists F, m.
    split; [exact HF|]. split; [exact EF|]. split; [congruence|exact PK].
  - intros (NE & F & m & HF & EF & -> & PK). split; [exact NE|].
    pose proof (HA F HF) as Hi. apply in_map_iff in Hi. destruct Hi as ([f' g] & Q & Hi). cbn [fst] in Q.
    exists g. rewrite <- EF, <- Q. split; [exact Hi|]. destruct (HO f' g Hi) as (F' & m' & HF' & EF' & E1 & PK').
    assert (F' = F) as -> by (apply (func_unique P); auto; congruence). rewrite E1. do 2 f_equal.
    apply (picks_fun _ _ _ _ PK'). rewrite Q, EF. exact PK.
Qed.

(* ---------------- CloneCfg ---------------- *)

Lemma clone_nodes_nth ns : forall k p, nth_error (clone_nodes k ns) p =
  option_map (fun n => Clone n (n_clone n) (Z.of_nat (k + p))) (nth_error ns p).
Proof.
  induction ns as [|n ns IH]; intros k [|p]; cbn; try reflexivity.
  - rewrite Nat.add_0_r. reflexivity.
  - rewrite IH. replace (S k + p)%nat with (k + S p)%nat by lia. reflexivity.
Qed.
Lemma clone_nodes_len ns : forall k, length (clone_nodes k ns) = length ns.
Proof. induction ns as [|n ns IH]; intros k; cbn; auto. Qed.

Lemma clone_edges_ok dbg P clf pathf A st F :
  Inv P clf pathf A st -> In F P ->
  forall l B B0 cp, Forall2 (fun i a => exists d, nth_error (s_edges st) i = Some d /\ erel P clf d a) l B ->
  Forall (fun a => inside (f_index F) a = true /\ a_isec a = false) B ->
  NoDup (map ends (B0 ++ B)) ->
  Inv [F] clf (fun _ => []) B0 cp ->
  exists cp', clone_edges dbg st (f_index F) l cp = Ok cp' /\ Inv [F] clf (fun _ => []) (B0 ++ B) cp'.
Proof.
  intros V HF. induction l as [|i l IH]; intros B B0 cp FE HB ND VC; inversion FE as [|? a ? B' R FE']; subst.
  - exists cp. rewrite app_nil_r. split; [reflexivity|exact VC].
  - inversion HB as [|? ? Ha HB']; subst. destruct Ha as [Hin His].
    destruct R as (d & Hd & R1 & R2 & R3 & R4 & R5). cbn [clone_edges]. rewrite Hd.
    destruct (node_at_rname _ _ _ _ _ V _ _ R1) as (na & Ea & Na). destruct (node_at_rname _ _ _ _ _ V _ _ R2) as (nb' & Eb & Nb).
    rewrite Ea, Eb. destruct (v_fns _ _ _ _ _ VC F (or_introl eq_refl)) as (g & Hg & I). rewrite Hg.
    unfold inside in Hin. apply andb_true_iff in Hin. destruct Hin as [Q1 Q2].
    assert (QS : a_src a = (f_index F, snd (a_src a))) by (destruct (a_src a); cbn in *; f_equal; lia).
    assert (QD : a_sink a = (f_index F, snd (a_sink a))) by (destruct (a_sink a); cbn in *; f_equal; lia).
    assert (n_func na = f_index F) as -> by (rewrite QS in Na; congruence).
    assert (n_func nb' = f_index F) as -> by (rewrite QD in Nb; congruence).
    rewrite Z.eqb_refl. cbn [negb].
    assert (RR : forall r x, rname P clf r x -> x = (f_index F, snd x) -> exists p, nth_error (ids (nb F) (clf F)) p = Some (snd x)).
    { intros r x (e1 & F' & HF' & EF' & T) ex. assert (F' = F) as ->; [|eauto].
      apply (func_unique P); auto; [exact (v_nodup _ _ _ _ _ V)|]. rewrite EF', <- e1, ex. reflexivity. }
    destruct (RR _ _ R1 QS) as [p Hp]. destruct (RR _ _ R2 QD) as [q Hq].
    assert (intra_cfg_id na = snd (a_src a)) as -> by (unfold intra_cfg_id; rewrite <- Na; reflexivity).
    assert (intra_cfg_id nb' = snd (a_sink a)) as -> by (unfold intra_cfg_id; rewrite <- Nb; reflexivity).
    rewrite (get_by_id [F] clf (fun _ => []) _ F g p _ (or_introl eq_refl) I Hp). cbn [obind].
    rewrite (get_by_id [F] clf (fun _ => []) _ F g q _ (or_introl eq_refl) I Hq). cbn [obind].
    pose proof (pos_rname [F] clf F p _ (or_introl eq_refl) Hp) as RP. pose proof (pos_rname [F] clf F q _ (or_introl eq_refl) Hq) as RQ.
    rewrite <- QS in RP. rewrite <- QD in RQ.
    destruct (create_spec _ _ _ _ _ VC dbg (f_index F, p) (f_index F, q) (a_src a) (a_sink a) (e_weight d) (e_kind d) (e_isec d) RP RQ) as [C1 _].
    cbn [fst] in C1. rewrite C1.
    2:{ unfold may_create. replace (fst (a_src a) =? fst (a_sink a)) with true by lia. split; [congruence|].
        intros x Hx [X1 X2]. rewrite map_app in ND. apply NoDup_remove_2 in ND. apply ND. apply in_or_app. left.
        assert (ends a = ends x) as -> by (unfold ends; congruence). now apply in_map. }
    cbn [obind]. pose proof (create_inv _ _ _ _ _ VC (f_index F, p) (f_index F, q) (a_src a) (a_sink a) (e_weight d) (e_kind d) (e_isec d) RP RQ) as VC'.
    cbn [fst] in VC'. rewrite R3, R4, R5 in *.
    replace (AEdge (a_src a) (a_sink a) (a_weight a) (a_kind a) (a_isec a)) with a in VC' by (destruct a; reflexivity).
    assert (ND' : NoDup (map ends ((B0 ++ [a]) ++ B'))) by (rewrite <- app_assoc; exact ND).
    destruct (IH B' (B0 ++ [a]) _ FE' HB' ND' VC') as (cp' & E1 & V1).
    exists cp'. rewrite <- app_assoc in V1. split; [exact E1|exact V1].
Qed.

(** CloneCfg gives a cfg with the same nodes and the same edges inside the
    function; the edges to and from other functions are gone, and so are the
    recorded clone paths. *)
Theorem C72_copy : forall dbg P h st, NoDup (map f_index P) -> documented P h ->
  session dbg P h = Ok st ->
  forall F g, In F P -> cfg_at st (f_index F) = Some g ->
  exists cp g', CloneCfg dbg st g = Ok cp /\ s_cfgs cp = [(f_index F, g')] /\
    shows_cfg cp g' F (node_ids F h) [] (filter (inside (f_index F)) (edges h)).
Proof.
  intros dbg P h st N HD E F g HF Hg. pose proof (session_accepted dbg P h st N HD E) as AC.
  destruct (session_inv dbg P h N AC) as (st' & E' & V). assert (st' = st) as -> by congruence.
  destruct (v_fns _ _ _ _ _ V F HF) as (g0 & Hg0 & I). assert (g0 = g) as -> by congruence.
  destruct (tidy_edges dbg P h AC) as [T1 T2].
  set (clf := fun F => cloned (f_index F) h) in *.
  destruct (new_cfg_ok F (clf F) (clone_nodes 0 (g_nodes g))) as (g1 & E1 & I1).
  { rewrite clone_nodes_len. exact (i_len _ _ _ _ _ I). }
  { intros p id n Hi Hn. rewrite clone_nodes_nth in Hn. destruct (nth_error (g_nodes g) p) as [m|] eqn:Em; [|discriminate].
    cbn [option_map plus] in Hn. injection Hn as <-. pose proof (i_node _ _ _ _ _ I _ _ _ Hi Em) as SN.
    destruct id as [b c]. assert (n_clone m = c) as -> by (destruct SN as (_ & Q & _); congruence).
    apply (clone_shows F p b c m p c SN). intros ->. apply ids_original in Hi. tauto. }
  unfold CloneCfg. rewrite (i_section _ _ _ _ _ I), (i_index _ _ _ _ _ I), (i_module _ _ _ _ _ I), (i_names _ _ _ _ _ I), E1.
  cbn [obind].
  assert (VC : Inv [F] clf (fun _ => []) [] (State [(f_index F, g1)] [])).
  { constructor; cbn [s_cfgs s_edges map fst].
    - constructor; [intros []|constructor].
    - reflexivity.
    - intros G [<-|[]]. exact (v_cl _ _ _ _ _ V F HF).
    - intros G [<-|[]]. exists g1. split; [|exact I1]. unfold cfg_at. cbn [s_cfgs aget]. rewrite Z.eqb_refl. reflexivity.
    - constructor. }
  rewrite (i_intra _ _ _ _ _ I).
  pose proof (sel_filter _ _ _ _ _ (v_edges _ _ _ _ _ V) (inside_rel _ _ (f_index F))) as SF.
  destruct (clone_edges_ok dbg P clf _ _ st F V HF _ _ [] (State [(f_index F, g1)] []) SF) as (cp & E2 & V2); [| |exact VC|].
  { apply Forall_forall. intros a Ha. apply filter_In in Ha. destruct Ha as [Ha Hi]. split; [exact Hi|].
    rewrite Forall_forall in T2. apply (T2 a Ha). unfold inside in Hi. unfold local. lia. }
  { cbn [app]. replace (filter (inside (f_index F)) (edges h)) with (filter (inside (f_index F)) (filter local (edges h))).
    - apply filter_map_comm. exact T1.
    - clear. induction (edges h) as [|a A IH]; [reflexivity|]. cbn [filter]. unfold local at 1.
      destruct (fst (a_src a) =? fst (a_sink a)) eqn:Q; cbn [filter].
      + destruct (inside (f_index F) a); rewrite IH; reflexivity.
      + rewrite IH. destruct (inside (f_index F) a) eqn:Q2; [|reflexivity]. unfold inside in Q2. lia. }
  rewrite E2. cbn [app] in V2. destruct (obs_all _ _ _ _ _ V2 F (or_introl eq_refl)) as (g' & Hg' & SH).
  exists cp, g'. split; [reflexivity|]. split; [|exact SH].
  pose proof (v_keys _ _ _ _ _ V2) as K. cbn [map] in K. unfold cfg_at in Hg'.
  destruct (s_cfgs cp) as [|[f1 x1] [|y ys]]; cbn [map fst] in K; try discriminate. injection K as ->.
  cbn [aget] in Hg'. rewrite Z.eqb_refl in Hg'. congruence.
Qed.

(* ---------------- what is lost or goes wrong ---------------- *)

(** addr() returns the address the node was made with exactly when it fits an
    int (or is that far below 2^64). *)
Theorem C72_address : forall a, 0 <= a < w64 ->
  (read_back a = a <-> a < 2147483648 \/ w64 - 2147483648 <= a).
Proof.
  intros a Ha. unfold read_back, w64 in *.
  destruct (Z.ltb_spec (a mod 4294967296) 2147483648); Z.div_mod_to_equations; lia.
Qed.

(** A path given by the position of a clone instead of the index of an original
    block is accepted, and makes two nodes of the same id. *)
Definition cfg_f : func := Func 0 [] None [[102]] [Block 0 10 4 false 0; Block 4 11 4 false 0].
Definition ids_of (g : cfg) : list (nat * nat) := map (fun n => (n_bb n, n_clone n)) (g_nodes g).
Theorem C72_clone_of_clone_refuted :
  exists st g, session false [cfg_f] [OClone 0 0 [1%nat]; OClone 0 0 [2%nat]] = Ok st /\
    cfg_at st 0 = Some g /\ ids_of g = [(0, 0); (1, 0); (1, 1); (1, 1)]%nat.
Proof. eexists. eexists. split; [vm_compute; reflexivity|]. split; vm_compute; reflexivity. Qed.

(** Non-vacuity: two functions, a diamond with a cloned join, calls between the
    functions, a landing pad. *)
Definition ex_f : func := Func 0 [116] None [[102]]
  [Block 4096 10 4 false 0; Block 4100 11 4 false 0; Block 4104 12 0 false 0; Block 4108 13 4 true 0].
Definition ex_g : func := Func 5 [116] (Some [109]) [[103]; [104]] [Block 5368709120 20 8 false 0].
Definition br := KBranchOrFallthrough.
Definition ex_h : list op :=
  [OUpdate (0, (0, 0)%nat) (0, (1, 0)%nat) 30 br false;
   OUpdate (0, (0, 0)%nat) (0, (2, 0)%nat) 20 br false;
   OClone 0 1 [3%nat];
   OUpdate (0, (1, 0)%nat) (0, (3, 1)%nat) 30 br false;
   OUpdate (0, (2, 0)%nat) (0, (3, 0)%nat) 12 br false;
   OUpdate (0, (1, 0)%nat) (0, (3, 0)%nat) 11 br false;
   OUpdate (0, (2, 0)%nat) (0, (3, 0)%nat) 8 br false;
   OCreate (0, (1, 0)%nat) (5, (0, 0)%nat) 7 KCall true;
   OUpdate (5, (0, 0)%nat) (0, (1, 0)%nat) 7 KRet true].

Example C72_nonvacuous :
  NoDup (map f_index [ex_f; ex_g]) /\ documented [ex_f; ex_g] ex_h /\
  (exists st g g5, session true [ex_f; ex_g] ex_h = Ok st /\ cfg_at st 0 = Some g /\ cfg_at st 5 = Some g5 /\
     ids_of g = [(0, 0); (1, 0); (2, 0); (3, 0); (3, 1)]%nat /\
     GetHotJoinNodes st g 25 10 = Ok [3%nat] /\ GetHotJoinNodes st g 25 12 = Ok [] /\
     GetNodeFrequencyStats st g = Ok (5, 1, 2) /\ has_hot_landing_pads st g = Ok true /\
     is_hot g5 = true /\ map addr (g_nodes g5) = [1073741824] /\
     (exists cp, CloneCfg true st g = Ok cp)) /\
  fits (edges ex_h).
Proof.
  split; [repeat (constructor; [cbn; lia|]); constructor|]. split.
  { intros f pred path H F HF EF. cbn in H.
    repeat (destruct H as [H|H]; [try discriminate; injection H as <- <- <-|]); [|destruct H].
    destruct HF as [<-|[<-|[]]]; [|discriminate EF]. constructor; [cbn; lia|constructor]. }
  split.
  { do 3 eexists. do 10 (split; [vm_compute; reflexivity|]). eexists. vm_compute. reflexivity. }
  assert (EQ : edges ex_h = ltac:(let x := eval vm_compute in (edges ex_h) in exact x)) by (vm_compute; reflexivity).
  rewrite EQ. split; [repeat (constructor; [cbn; lia|]); constructor|].
  assert (G : forall (t : aedge -> bool) (L : list aedge), Forall (fun a => 0 <= a_weight a) L -> sum_weights (filter t L) <= sum_weights L).
  { intros t L H. induction H as [|a L Ha HL IH]; [cbn; lia|]. cbn [filter]. destruct (t a); unfold sum_weights in *; cbn [fold_right] in *; lia. }
  intros x. split; (eapply Z.le_trans; [apply G; repeat (constructor; [cbn; lia|]); constructor|cbn; lia]).
Qed.

Print Assumptions C72_accepts.
Print Assumptions C72_observe.
Print Assumptions C72_ids.
Print Assumptions C72_weights.
Print Assumptions C72_queries.
Print Assumptions C72_program_hot_join.
Print Assumptions C72_copy.
Print Assumptions C72_address.
Print Assumptions C72_clone_of_clone_refuted.
