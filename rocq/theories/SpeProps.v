(** C42: thread to process resolution over time; C49: SPE time conversion. *)
From Verif Require Import Base ZMap SpeModel.
From Coq Require Import Sorted.

(** Specification: the observations of a thread that the events contain, in the
    order of the events: (time, process). *)
Definition observed (tid : Z) (w : who) : list (Z * Z) :=
  if (0 <? s32 (w_pid w)) && (s32 (w_tid w) =? tid) && (0 <? tid) then [(w_time w, s32 (w_pid w))] else [].
Definition timed (tid : Z) (w : who) : list (Z * Z) := if 0 <? w_time w then observed tid w else [].
Definition observations (tid : Z) (events : list event) : list (Z * Z) :=
  flat_map (fun e => observed tid (ev_fork e) ++ timed tid (ev_sample e) ++
                     match ev_info e with Some w => timed tid w | None => [] end) events.

(** Times never go back. *)
Definition chronological (l : list (Z * Z)) : Prop :=
  forall a b l1 l2 l3, l = l1 ++ a :: l2 ++ b :: l3 -> fst a <= fst b.

(** The last time conversion parameters seen. *)
Definition last_conv (events : list event) : time_conv :=
  fold_left (fun c e => match ev_conv e with Some c' => c' | None => c end) events (TimeConv false 0 0 0 0 0).

(* ---- the map of one thread is built from its observations ---- *)
Definition build (l : list (Z * Z)) : list (Z * Z) -> list (Z * Z) :=
  fold_left (fun m o => record_pid (snd o) (fst o) m) l.

Lemma record_pid_nonempty p t m : record_pid p t m <> [].
Proof.
  unfold record_pid. destruct (rbegin m) as [[k q]|] eqn:E.
  - destruct (q =? p).
    + destruct m; [discriminate|congruence].
    + destruct m as [|[k' v'] m]; cbn; [discriminate|]. destruct (t <? k'); [discriminate|]. destruct (t =? k'); discriminate.
  - destruct m as [|[k' v'] m]; cbn; [discriminate|]. destruct (t <? k'); [discriminate|]. destruct (t =? k'); discriminate.
Qed.

Definition repr (tid : Z) (p : provider) (m : list (Z * Z)) : Prop :=
  aget Z.eqb tid (pr_tids p) = match m with [] => None | _ => Some m end.

Lemma record_repr tid w p m : repr tid p m -> repr tid (record w p) (build (observed tid w) m).
Proof.
  unfold repr, record, observed. intros H.
  destruct (Z.leb_spec (s32 (w_pid w)) 0) as [Hp|Hp]; cbn [orb].
  { replace (0 <? s32 (w_pid w)) with false by lia. exact H. }
  replace (0 <? s32 (w_pid w)) with true by lia. cbn [andb].
  destruct (Z.leb_spec (s32 (w_tid w)) 0) as [Ht|Ht].
  { destruct (Z.eqb_spec (s32 (w_tid w)) tid); cbn [andb]; [|exact H]. replace (0 <? tid) with false by lia. exact H. }
  cbn [pr_tids]. rewrite (aget_aset Z.eqb Z.eqb_spec).
  destruct (Z.eqb_spec (s32 (w_tid w)) tid) as [<-|Hne]; cbn [andb].
  - rewrite Z.eqb_refl. replace (0 <? s32 (w_tid w)) with true by lia. cbn [build fold_left fst snd].
    assert (pids_of (s32 (w_tid w)) p = m) as ->.
    { unfold pids_of. rewrite H. destruct m; reflexivity. }
    pose proof (record_pid_nonempty (s32 (w_pid w)) (w_time w) m) as Hn.
    destruct (record_pid _ _ m); [congruence|reflexivity].
  - destruct (Z.eqb_spec tid (s32 (w_tid w))); [congruence|]. exact H.
Qed.

Lemma record_conv w p : pr_conv (record w p) = pr_conv p.
Proof. unfold record. destruct ((_ <=? 0) || (_ <=? 0)); reflexivity. Qed.

Lemma add_event_repr tid e p m : repr tid p m ->
  repr tid (add_event p e) (build (observed tid (ev_fork e) ++ timed tid (ev_sample e) ++
                     match ev_info e with Some w => timed tid w | None => [] end) m).
Proof.
  intros H. unfold add_event.
  set (p0 := match ev_conv e with Some c => Provider (pr_tids p) c (pr_pids p) | None => p end).
  assert (H0 : repr tid p0 m) by (unfold p0; destruct (ev_conv e); exact H).
  unfold build. rewrite fold_left_app, fold_left_app.
  pose proof (record_repr tid (ev_fork e) p0 m H0) as H1. set (p1 := record (ev_fork e) p0) in *.
  assert (H2 : repr tid (if 0 <? w_time (ev_sample e) then record (ev_sample e) p1 else p1)
     (build (timed tid (ev_sample e)) (build (observed tid (ev_fork e)) m))).
  { unfold timed. destruct (0 <? w_time (ev_sample e)); [apply record_repr|]; exact H1. }
  set (p2 := if 0 <? w_time (ev_sample e) then record (ev_sample e) p1 else p1) in *.
  destruct (ev_info e) as [w|]; [|exact H2].
  change (repr tid (if 0 <? w_time w then record w p2 else p2)
     (build (timed tid w) (build (timed tid (ev_sample e)) (build (observed tid (ev_fork e)) m)))).
  unfold timed at 1. destruct (0 <? w_time w); [apply record_repr|]; exact H2.
Qed.

Lemma make_repr tid events : repr tid (make_provider events) (build (observations tid events) []).
Proof.
  unfold make_provider, observations.
  assert (G : forall p m, repr tid p m ->
    repr tid (fold_left add_event events p) (build (flat_map (fun e => observed tid (ev_fork e) ++ timed tid (ev_sample e) ++
                     match ev_info e with Some w => timed tid w | None => [] end) events) m)).
  { induction events as [|e es IH]; intros p m H; [exact H|]. cbn [fold_left flat_map].
    unfold build. rewrite fold_left_app. apply IH. apply add_event_repr. exact H. }
  apply G. reflexivity.
Qed.

Lemma make_conv events : pr_conv (make_provider events) = last_conv events.
Proof.
  unfold make_provider, last_conv.
  assert (G : forall p, pr_conv (fold_left add_event events p) =
     fold_left (fun c e => match ev_conv e with Some c' => c' | None => c end) events (pr_conv p)).
  { induction events as [|e es IH]; intros p; [reflexivity|]. cbn [fold_left]. rewrite IH. f_equal.
    unfold add_event. destruct (ev_info e) as [w|]; [destruct (0 <? w_time w)|];
      rewrite ?record_conv; destruct (0 <? w_time (ev_sample e)); rewrite ?record_conv; destruct (ev_conv e); reflexivity. }
  apply G.
Qed.

(* ---- correctness of the map of one thread ---- *)
(** What a lookup should return. *)
Definition latest (l : list (Z * Z)) (t pid : Z) : Prop :=
  exists t0, In (t0, pid) l /\ t0 <= t /\ forall o, In o l -> fst o <= t -> fst o <= t0.

Definition map_ok (l m : list (Z * Z)) : Prop :=
  zsorted m /\ (forall k v, In (k, v) m -> exists v', In (k, v') l) /\
  (forall t, match zpred t m with
             | Some (_, pid) => latest l t pid
             | None => forall o, In o l -> t < fst o
             end).

Lemma rbegin_None {V} (m : list (Z * V)) : rbegin m = None -> m = [].
Proof. induction m as [|e m IH]; [reflexivity|]. cbn. destruct m; [discriminate|]. intros H. specialize (IH H). discriminate. Qed.
Lemma rbegin_spec {V} (m : list (Z * V)) e : zsorted m -> rbegin m = Some e ->
  In e m /\ forall e', In e' m -> fst e' <= fst e.
Proof.
  induction 1 as [|k v m L S0 IH]; [discriminate|]. cbn. destruct m as [|e1 m].
  - intros H; injection H as <-. split; [left; reflexivity|]. intros e' [<-|[]]. cbn. lia.
  - intros H. destruct (IH H) as [A B]. split; [right; exact A|]. intros e' [<-|H']; [|auto].
    cbn. destruct e as [k1 v1]. specialize (L k1 v1 A). cbn. lia.
Qed.
Lemma zinsert_keep {V} k (v : V) m e : In e m -> In e (zinsert k v m).
Proof.
  induction m as [|[k' v'] m IH]; [intros []|]. intros H. cbn. destruct (k <? k'); [right; exact H|].
  destruct (k =? k'); [exact H|]. destruct H as [<-|H]; [left; reflexivity|right; auto].
Qed.

Lemma map_ok_step l m t p : map_ok l m -> (forall o, In o l -> fst o <= t) -> map_ok (l ++ [(t, p)]) (record_pid p t m).
Proof.
  intros (Hs & Hk & Hl) Hmax.
  assert (Hkm : forall e, In e m -> fst e <= t).
  { intros [k v] H. destruct (Hk _ _ H) as [v' H']. apply Hmax in H'. exact H'. }
  (* lookups before t do not change, whatever happens at t *)
  assert (Hbefore : forall t0, t0 < t ->
     match zpred t0 m with
     | Some (_, pid) => latest (l ++ [(t, p)]) t0 pid
     | None => forall o, In o (l ++ [(t, p)]) -> t0 < fst o
     end).
  { intros t0 Ht0. specialize (Hl t0). destruct (zpred t0 m) as [[k pid]|].
    - destruct Hl as (t1 & A & B & C). exists t1. split; [apply in_app_iff; left; exact A|]. split; [exact B|].
      intros o Ho. apply in_app_iff in Ho. destruct Ho as [Ho|[<-|[]]]; [auto|cbn; lia].
    - intros o Ho. apply in_app_iff in Ho. destruct Ho as [Ho|[<-|[]]]; [auto|cbn; lia]. }
  assert (Hlate : forall t0 pid, t <= t0 -> (exists v, (v = pid) /\ In (t, v) (l ++ [(t, p)])) -> latest (l ++ [(t, p)]) t0 pid).
  { intros t0 pid Ht0 (v & <- & Hin). exists t. split; [exact Hin|]. split; [exact Ht0|].
    intros o Ho _. apply in_app_iff in Ho. destruct Ho as [Ho|[<-|[]]]; [auto|cbn; lia]. }
  assert (Hkeys : forall m', (forall k v, In (k, v) m' -> (k = t /\ v = p) \/ In (k, v) m) ->
     forall k v, In (k, v) m' -> exists v', In (k, v') (l ++ [(t, p)])).
  { intros m' Hm' k v H. apply Hm' in H. destruct H as [[-> _]|H].
    - exists p. apply in_app_iff. right; left; reflexivity.
    - destruct (Hk _ _ H) as [v' H']. exists v'. apply in_app_iff. left; exact H'. }
  unfold record_pid. destruct (rbegin m) as [[k q]|] eqn:E.
  - destruct (rbegin_spec m (k, q) Hs E) as [Hin Hlast]. cbn [fst] in Hlast.
    destruct (Z.eqb_spec q p) as [->|Hne].
    + (* the most recent entry is from this process *)
      split; [exact Hs|]. split; [apply Hkeys; auto|]. intros t0. destruct (Z.ltb_spec t0 t) as [|Ht0]; [apply Hbefore; lia|].
      assert (zpred t0 m = Some (k, p)) as ->.
      { apply zpred_spec; [exact Hs|]. split; [exact Hin|]. split; [specialize (Hkm _ Hin); cbn in *; lia|].
        intros e' He' _. apply Hlast in He'. exact He'. }
      apply Hlate; [exact Ht0|]. exists p. split; [reflexivity|]. apply in_app_iff. right; left; reflexivity.
    + split; [apply zinsert_sorted; exact Hs|]. split; [apply Hkeys; apply zinsert_keys|].
      intros t0. destruct (Z.eq_dec k t) as [->|Hkt].
      * (* an entry for this very time exists already: nothing is inserted *)
        assert (Ei : zinsert t p m = m).
        { clear -Hs Hin. induction Hs as [|k' v' m' L S0 IH]; [destruct Hin|]. cbn.
          destruct Hin as [Heq|Hin].
          - injection Heq as -> ->. rewrite Z.ltb_irrefl, Z.eqb_refl. reflexivity.
          - specialize (L _ _ Hin). replace (t <? k') with false by lia. replace (t =? k') with false by lia.
            rewrite IH by exact Hin. reflexivity. }
        rewrite Ei. destruct (Z.ltb_spec t0 t) as [|Ht0]; [apply Hbefore; lia|].
        assert (Ez : zpred t0 m = Some (t, q)).
        { apply zpred_spec; [exact Hs|]. split; [exact Hin|]. split; [cbn; lia|].
          intros e' He' _. apply Hlast in He'. exact He'. }
        specialize (Hl t0). rewrite Ez in Hl |- *. destruct Hl as (t1 & A & B & C).
        destruct (Hk _ _ Hin) as [v' Hv']. specialize (C _ Hv'). cbn in C. specialize (C ltac:(lia)).
        pose proof (Hmax _ A) as D. cbn in D. assert (t1 = t) as -> by lia.
        apply Hlate; [exact Ht0|]. exists q. split; [reflexivity|]. apply in_app_iff. left; exact A.
      * assert (Hklt : k < t) by (specialize (Hkm _ Hin); cbn in Hkm; lia).
        assert (Hz : zpred t0 (zinsert t p m) = if t <=? t0 then Some (t, p) else zpred t0 m).
        { destruct (Z.leb_spec t t0) as [Ht0|Ht0].
          - apply zpred_spec; [apply zinsert_sorted; exact Hs|]. split; [|split; [cbn; lia|]].
            + apply (zfind_In t p (zinsert t p m)); [apply zinsert_sorted; exact Hs|].
              rewrite zfind_zinsert by exact Hs.
              assert (zfind t m = None) as ->.
              { destruct (zfind t m) eqn:Ef; [|reflexivity]. apply zfind_In in Ef; [|exact Hs].
                specialize (Hlast _ Ef). cbn in Hlast. lia. }
              rewrite Z.eqb_refl. reflexivity.
            + intros [k' v'] He' _. apply zinsert_keys in He'. destruct He' as [[-> _]|He']; [cbn; lia|].
              apply Hlast in He'. cbn in *. lia.
          - destruct (zpred t0 m) as [e|] eqn:Ez.
            + apply zpred_spec in Ez; [|exact Hs]. destruct Ez as (A & B & C).
              apply zpred_spec; [apply zinsert_sorted; exact Hs|]. split; [apply zinsert_keep; exact A|]. split; [exact B|].
              intros [k' v'] He' Hle. apply zinsert_keys in He'. destruct He' as [[-> _]|He']; [cbn in Hle; lia|]. apply C; assumption.
            + apply (proj2 (zpred_None t0 _ (zinsert_sorted t p m Hs))). intros [k' v'] He'. apply zinsert_keys in He'.
              destruct He' as [[-> _]|He']; [cbn; lia|]. apply (proj1 (zpred_None t0 m Hs) Ez). exact He'. }
        rewrite Hz. destruct (Z.leb_spec t t0) as [Ht0|Ht0].
        -- apply Hlate; [exact Ht0|]. exists p. split; [reflexivity|]. apply in_app_iff. right; left; reflexivity.
        -- apply Hbefore. lia.
  - apply rbegin_None in E. subst m. cbn [zinsert]. split; [constructor; [intros ? ? []|constructor]|].
    split; [apply Hkeys; intros k v [H|[]]; injection H as <- <-; auto|].
    intros t0. cbn. destruct (Z.leb_spec t t0) as [Ht0|Ht0].
    + apply Hlate; [exact Ht0|]. exists p. split; [reflexivity|]. apply in_app_iff. right; left; reflexivity.
    + specialize (Hbefore t0 ltac:(lia)). exact Hbefore.
Qed.

Lemma chronological_snoc l o : chronological (l ++ [o]) -> chronological l /\ forall o', In o' l -> fst o' <= fst o.
Proof.
  intros H. split.
  - intros a b l1 l2 l3 ->. apply (H a b l1 l2 (l3 ++ [o])). rewrite <- !app_assoc. cbn. rewrite <- !app_assoc. reflexivity.
  - intros o' Ho'. apply in_split in Ho'. destruct Ho' as (l1 & l2 & ->).
    apply (H o' o l1 l2 []). rewrite <- app_assoc. reflexivity.
Qed.

Lemma build_ok l : chronological l -> map_ok l (build l []).
Proof.
  induction l as [|o l IH] using rev_ind; intros H.
  - split; [constructor|]. split; [intros ? ? []|]. cbn. intros t o [].
  - apply chronological_snoc in H. destruct H as [H1 H2]. unfold build. rewrite fold_left_app. cbn [fold_left].
    destruct o as [t p]. apply map_ok_step; [apply IH; exact H1|exact H2].
Qed.

(** C42.  Take any list of perf events whose observations of thread [tid] are in
    chronological order, and any SPE record with a valid context for that
    thread.  If the thread was observed not later than the record, GetPid
    returns the process of the latest such observation; otherwise it returns
    the thread id itself. *)
Theorem C42_latest_process : forall events r,
  let tid := s32 (r_id r) in
  let obs := observations tid events in
  let now := SpeTimestampToPerfTimestamp (last_conv events) (r_timestamp r) in
  chronological obs -> (r_el1 r || r_el2 r = true) ->
  exists pid, GetPid (make_provider events) r = Some pid /\
    ((exists t0, In (t0, pid) obs /\ t0 <= now /\ forall o, In o obs -> fst o <= now -> fst o <= t0)
     \/ ((forall o, In o obs -> now < fst o) /\ pid = tid)).
Proof.
  intros events r tid obs now Hc Hel. unfold GetPid.
  replace (negb (r_el1 r) && negb (r_el2 r)) with false by (destruct (r_el1 r), (r_el2 r); cbn in *; congruence).
  pose proof (make_repr tid events) as Hr. unfold repr in Hr. fold obs in Hr. fold tid.
  destruct (build_ok obs Hc) as (_ & _ & Hl). specialize (Hl now).
  rewrite make_conv. fold now. rewrite Hr. destruct (build obs []) as [|e m].
  - cbn in Hl. exists tid. split; [reflexivity|]. right. auto.
  - destruct (zpred now (e :: m)) as [[k pid]|].
    + exists pid. split; [reflexivity|]. left. exact Hl.
    + exists tid. split; [reflexivity|]. right. auto.
Qed.

(** A thread that no event mentions resolves to its own id. *)
Corollary C42_unknown_thread : forall events r,
  (r_el1 r || r_el2 r = true) -> observations (s32 (r_id r)) events = [] ->
  GetPid (make_provider events) r = Some (s32 (r_id r)).
Proof.
  intros events r Hel Ho. destruct (C42_latest_process events r) as (pid & E & H).
  - rewrite Ho. intros a b l1 l2 l3 H. destruct l1; discriminate.
  - exact Hel.
  - rewrite E. f_equal. destruct H as [(t0 & H & _)|[_ H]]; [rewrite Ho in H; destruct H|exact H].
Qed.

(** Without chronological order the claim fails: the thread is first reported at
    time 20 and then at time 10, both for process 6; a record at time 15
    resolves to the thread id although process 6 was observed at time 10. *)
Theorem C42_out_of_order_refuted :
  exists events r, let tid := s32 (r_id r) in
    SpeTimestampToPerfTimestamp (last_conv events) (r_timestamp r) = 15 /\
    In (10, 6) (observations tid events) /\ tid = 7 /\
    GetPid (make_provider events) r = Some 7.
Proof.
  exists [Event (Some (TimeConv false 0 0 0 1 0)) (Who 6 7 20) (Who 0 0 0) None; Event None (Who 6 7 10) (Who 0 0 0) None].
  exists (SpeRecord true false 7 15). cbv zeta. split; [reflexivity|]. split; [right; left; reflexivity|].
  split; reflexivity.
Qed.

(** A record without context resolves exactly when a single process occurs in
    all the events, namely to it. *)
Definition mentions (pid : Z) (events : list event) : Prop :=
  exists tid t, In (t, pid) (observations tid events).

Lemma zinsert_vals {V} k (v : V) m e : In e (zinsert k v m) -> e = (k, v) \/ In e m.
Proof. destruct e as [k1 v1]. intros H. apply zinsert_keys in H. destruct H as [[-> ->]|H]; auto. Qed.

Definition pids_inv (p : provider) (obs : list (Z * Z)) : Prop :=
  NoDup (pr_pids p) /\ (forall pid, In pid (pr_pids p) <-> In pid (map snd obs)) /\
  (forall tid m t pid, aget Z.eqb tid (pr_tids p) = Some m -> In (t, pid) m -> In pid (pr_pids p)).

Lemma rbegin_In {V} (m : list (Z * V)) e : rbegin m = Some e -> In e m.
Proof.
  induction m as [|x m IH]; [discriminate|]. cbn. destruct m; [intros H; injection H as ->; left; reflexivity|].
  intros H. right. apply IH. exact H.
Qed.

Definition all_obs (w : who) : list (Z * Z) :=
  if (0 <? s32 (w_pid w)) && (0 <? s32 (w_tid w)) then [(s32 (w_tid w), s32 (w_pid w))] else [].

Lemma record_pids w p obs : pids_inv p obs -> pids_inv (record w p) (obs ++ all_obs w).
Proof.
  intros (Hn & Hi & Hm). unfold record, all_obs.
  destruct (Z.leb_spec (s32 (w_pid w)) 0); cbn [orb].
  { replace (0 <? s32 (w_pid w)) with false by lia. cbn [andb]. rewrite app_nil_r. split; [|split]; assumption. }
  destruct (Z.leb_spec (s32 (w_tid w)) 0).
  { replace (0 <? s32 (w_tid w)) with false by lia. rewrite andb_false_r, app_nil_r. split; [|split]; assumption. }
  replace (0 <? s32 (w_pid w)) with true by lia. replace (0 <? s32 (w_tid w)) with true by lia. cbn [andb].
  set (pid := s32 (w_pid w)) in *. set (tid := s32 (w_tid w)) in *.
  set (same := match rbegin (pids_of tid p) with Some (_, q) => q =? pid | None => false end).
  assert (Hsame : same = true -> In pid (pr_pids p)).
  { unfold same, pids_of. destruct (aget Z.eqb tid (pr_tids p)) as [m|] eqn:E; [|discriminate].
    destruct (rbegin m) as [[t q]|] eqn:Er; [|discriminate]. intros Hq. apply Z.eqb_eq in Hq. subst q.
    apply rbegin_In in Er. apply (Hm tid m t pid E Er). }
  assert (Hin : forall x, In x (if same || existsb (Z.eqb pid) (pr_pids p) then pr_pids p else pid :: pr_pids p) <-> x = pid \/ In x (pr_pids p)).
  { intros x. destruct same eqn:Es; cbn [orb].
    - split; [auto|]. intros [->|Hx]; auto.
    - destruct (existsb (Z.eqb pid) (pr_pids p)) eqn:Ee.
      + apply existsb_exists in Ee. destruct Ee as (y & Hy & Ey). apply Z.eqb_eq in Ey. subst y.
        split; [auto|]. intros [->|Hx]; auto.
      + cbn. split; intros [Hx|Hx]; auto. }
  split; [|split]; cbn [pr_pids pr_tids].
  - destruct same eqn:Es; cbn [orb]; [exact Hn|]. destruct (existsb (Z.eqb pid) (pr_pids p)) eqn:Ee; [exact Hn|].
    constructor; [|exact Hn]. intros Hx. assert (existsb (Z.eqb pid) (pr_pids p) = true); [|congruence].
    apply existsb_exists. exists pid. split; [exact Hx|apply Z.eqb_refl].
  - intros x. rewrite Hin, map_app, in_app_iff, <- Hi. cbn. intuition congruence.
  - intros tid' m t x E Hx. apply Hin. rewrite (aget_aset Z.eqb Z.eqb_spec) in E.
    destruct (Z.eqb_spec tid' tid) as [->|Hne].
    + injection E as <-. unfold record_pid in Hx.
      assert (Hpo : forall t x, In (t, x) (pids_of tid p) -> In x (pr_pids p)).
      { unfold pids_of. intros t1 x1 Hx1. destruct (aget Z.eqb tid (pr_tids p)) eqn:Eg; [|destruct Hx1]. exact (Hm _ _ _ _ Eg Hx1). }
      destruct (rbegin (pids_of tid p)) as [[k q]|].
      * destruct (q =? pid); [right; eapply Hpo; exact Hx|]. apply zinsert_vals in Hx.
        destruct Hx as [Hx|Hx]; [left; congruence|right; eapply Hpo; exact Hx].
      * apply zinsert_vals in Hx. destruct Hx as [Hx|Hx]; [left; congruence|right; eapply Hpo; exact Hx].
    + right. exact (Hm _ _ _ _ E Hx).
Qed.

Definition event_obs (e : event) : list (Z * Z) :=
  all_obs (ev_fork e) ++ (if 0 <? w_time (ev_sample e) then all_obs (ev_sample e) else []) ++
  match ev_info e with Some w => if 0 <? w_time w then all_obs w else [] | None => [] end.

Lemma add_event_pids e p obs : pids_inv p obs -> pids_inv (add_event p e) (obs ++ event_obs e).
Proof.
  intros H. unfold add_event, event_obs. rewrite !app_assoc.
  set (p0 := match ev_conv e with Some c => Provider (pr_tids p) c (pr_pids p) | None => p end).
  assert (H0 : pids_inv p0 obs) by (unfold p0; destruct (ev_conv e); exact H).
  apply (record_pids (ev_fork e)) in H0. set (p1 := record (ev_fork e) p0) in *.
  assert (H2 : pids_inv (if 0 <? w_time (ev_sample e) then record (ev_sample e) p1 else p1)
     ((obs ++ all_obs (ev_fork e)) ++ (if 0 <? w_time (ev_sample e) then all_obs (ev_sample e) else []))).
  { destruct (0 <? w_time (ev_sample e)); [apply record_pids; exact H0|rewrite app_nil_r; exact H0]. }
  destruct (ev_info e) as [w|]; [|rewrite app_nil_r; exact H2].
  destruct (0 <? w_time w); [apply record_pids; exact H2|rewrite app_nil_r; exact H2].
Qed.

Lemma make_pids events : pids_inv (make_provider events) (flat_map event_obs events).
Proof.
  unfold make_provider.
  assert (G : forall p obs, pids_inv p obs -> pids_inv (fold_left add_event events p) (obs ++ flat_map event_obs events)).
  { induction events as [|e es IH]; intros p obs H; cbn [fold_left flat_map]; [rewrite app_nil_r; exact H|].
    rewrite app_assoc. apply IH. apply add_event_pids. exact H. }
  apply (G _ []). split; [constructor|]. split; [intros; reflexivity|]. cbn. intros; discriminate.
Qed.

Lemma observed_all tid t pid w : In (t, pid) (observed tid w) <-> In (tid, pid) (all_obs w) /\ t = w_time w.
Proof.
  unfold observed, all_obs. destruct (Z.ltb_spec 0 (s32 (w_pid w))); cbn [andb]; [|cbn; tauto].
  destruct (Z.eqb_spec (s32 (w_tid w)) tid) as [<-|Hne]; cbn [andb].
  - destruct (0 <? s32 (w_tid w)); cbn; [|tauto]. split; [intros [E|[]]; injection E as <- <-; auto|].
    intros [[E|[]] ->]. injection E as <-. auto.
  - split; [intros []|]. intros [H' _]. destruct (0 <? s32 (w_tid w)); [|destruct H']. destruct H' as [E|[]]. congruence.
Qed.

Lemma mentions_obs pid events : mentions pid events <-> In pid (map snd (flat_map event_obs events)).
Proof.
  unfold mentions, observations. rewrite in_map_iff. split.
  - intros (tid & t & H). apply in_flat_map in H. destruct H as (e & He & H). exists (tid, pid). split; [reflexivity|].
    apply in_flat_map. exists e. split; [exact He|]. unfold event_obs. rewrite !in_app_iff in *. unfold timed in H.
    destruct H as [H|[H|H]].
    + left. apply observed_all in H. tauto.
    + right; left. destruct (0 <? w_time (ev_sample e)); [|destruct H]. apply observed_all in H. tauto.
    + right; right. destruct (ev_info e) as [w|]; [|destruct H]. destruct (0 <? w_time w); [|destruct H].
      apply observed_all in H. tauto.
  - intros ([tid q] & Eq & H). cbn in Eq. subst q. apply in_flat_map in H. destruct H as (e & He & H).
    unfold event_obs in H. rewrite !in_app_iff in H.
    assert (G : forall w, In (tid, pid) (all_obs w) -> In (w_time w, pid) (observed tid w)) by (intros w Hw; apply observed_all; auto).
    destruct H as [H|[H|H]].
    + exists tid, (w_time (ev_fork e)). apply in_flat_map. exists e. split; [exact He|]. apply in_app_iff. left. auto.
    + destruct (0 <? w_time (ev_sample e)) eqn:E0; [|destruct H].
      exists tid, (w_time (ev_sample e)). apply in_flat_map. exists e. split; [exact He|]. rewrite !in_app_iff. right; left.
      unfold timed. rewrite E0. auto.
    + destruct (ev_info e) as [w|] eqn:Ei; [|destruct H]. destruct (0 <? w_time w) eqn:E0; [|destruct H].
      exists tid, (w_time w). apply in_flat_map. exists e. split; [exact He|]. rewrite !in_app_iff. right; right.
      rewrite Ei. unfold timed. rewrite E0. auto.
Qed.

Theorem C42_no_context : forall events r pid,
  r_el1 r = false -> r_el2 r = false ->
  (GetPid (make_provider events) r = Some pid <->
   (mentions pid events /\ forall q, mentions q events -> q = pid)).
Proof.
  intros events r pid H1 H2. unfold GetPid. rewrite H1, H2. cbn [negb andb].
  destruct (make_pids events) as (Hn & Hi & _).
  assert (Hi' : forall q, In q (pr_pids (make_provider events)) <-> mentions q events).
  { intros q. rewrite Hi, mentions_obs. reflexivity. }
  destruct (pr_pids (make_provider events)) as [|a [|b l]].
  - split; [discriminate|]. intros [H _]. apply Hi' in H. destruct H.
  - split.
    + intros E. injection E as ->. split; [apply Hi'; left; reflexivity|]. intros q Hq. apply Hi' in Hq.
      destruct Hq as [<-|[]]. reflexivity.
    + intros [H _]. apply Hi' in H. destruct H as [->|[]]. reflexivity.
  - split; [discriminate|]. intros [_ H]. exfalso. inversion Hn as [|? ? Hna _]; subst. apply Hna.
    rewrite (H a) by (apply Hi'; left; reflexivity). rewrite <- (H b) by (apply Hi'; right; left; reflexivity).
    left; reflexivity.
Qed.

Lemma sorted_chronological l : Sorted.StronglySorted (fun a b : Z * Z => fst a <= fst b) l -> chronological l.
Proof.
  intros H a b l1. revert l H. induction l1 as [|x l1 IH]; intros l H l2 l3 ->; inversion H as [|? ? H1 H2]; subst.
  - rewrite Forall_forall in H2. apply H2. apply in_app_iff. right; left; reflexivity.
  - eapply IH; [exact H1|reflexivity].
Qed.

Example C42_nonvacuous :
  let events := [Event (Some (TimeConv false 0 0 0 1 0)) (Who 100 7 10) (Who 0 0 0) None;
                 Event None (Who 0 0 0) (Who 100 7 20) None;
                 Event None (Who 0 0 0) (Who 0 0 0) (Some (Who 200 7 30))] in
  observations 7 events = [(10, 100); (20, 100); (30, 200)] /\
  chronological (observations 7 events) /\
  GetPid (make_provider events) (SpeRecord true false 7 29) = Some 100 /\
  GetPid (make_provider events) (SpeRecord true false 7 30) = Some 200 /\
  GetPid (make_provider events) (SpeRecord true false 7 9) = Some 7.
Proof.
  cbv zeta. split; [reflexivity|]. split; [|split; [|split]; reflexivity].
  change (observations 7 _) with [(10, 100); (20, 100); (30, 200)].
  apply sorted_chronological. repeat (constructor; [|repeat (constructor; [cbn; lia|]); constructor]). constructor.
Qed.

(** C49.  The conversion of an SPE time stamp is exact: it is
    time_zero + floor(cycles * mult / 2^shift) modulo 2^64, as long as the
    remainder product fits in 64 bits. *)
Theorem C49_time_conversion_exact : forall c cycles,
  tc_short c = false -> 0 <= tc_shift c < 64 -> 0 <= tc_mult c -> 0 <= cycles < 2 ^ 64 ->
  2 ^ tc_shift c * tc_mult c <= 2 ^ 64 ->
  SpeTimestampToPerfTimestamp c cycles = (tc_zero c + cycles * tc_mult c / 2 ^ tc_shift c) mod 2 ^ 64.
Proof.
  intros c cycles Hs Hsh Hm Hc Hov. unfold SpeTimestampToPerfTimestamp. rewrite Hs.
  rewrite !Z.shiftr_div_pow2 by lia. rewrite Z.shiftl_1_l.
  assert (Hp : 1 <= 2 ^ tc_shift c) by (apply (Z.pow_le_mono_r 2 0 (tc_shift c)); lia).
  assert (Hlt : 2 ^ tc_shift c < 2 ^ 64) by (apply Z.pow_lt_mono_r; lia).
  change w64 with (2 ^ 64) in *. unfold u64. change w64 with (2 ^ 64).
  rewrite (Z.mod_small (2 ^ tc_shift c)) by lia. rewrite (Z.mod_small (2 ^ tc_shift c - 1)) by lia.
  replace (2 ^ tc_shift c - 1) with (Z.ones (tc_shift c)) by (rewrite Z.ones_equiv; lia).
  rewrite Z.land_ones by lia. set (P := 2 ^ tc_shift c) in *. set (m := tc_mult c) in *.
  pose proof (Z.mod_pos_bound cycles P ltac:(lia)) as Hr.
  assert (Hrm : 0 <= cycles mod P * m < 2 ^ 64).
  { split; [nia|]. destruct (Z.eq_dec m 0) as [->|]; [lia|]. nia. }
  rewrite (Z.mod_small (cycles mod P * m)) by exact Hrm.
  rewrite Z.add_mod_idemp_r by lia. rewrite Z.add_mod_idemp_l by lia. f_equal.
  rewrite (Z.div_mod cycles P) at 3 by lia.
  replace ((P * (cycles / P) + cycles mod P) * m) with (cycles mod P * m + cycles / P * m * P) by ring.
  rewrite Z.div_add by lia. lia.
Qed.

(** It preserves the order of time stamps (as long as nothing wraps). *)
Theorem C49_time_conversion_monotone : forall c a b,
  tc_short c = false -> 0 <= tc_shift c < 64 -> 0 <= tc_mult c -> 0 <= tc_zero c ->
  2 ^ tc_shift c * tc_mult c <= 2 ^ 64 ->
  0 <= a <= b -> b < 2 ^ 64 -> tc_zero c + b * tc_mult c / 2 ^ tc_shift c < 2 ^ 64 ->
  SpeTimestampToPerfTimestamp c a <= SpeTimestampToPerfTimestamp c b.
Proof.
  intros c a b Hs Hsh Hm Hz Hov Hab Hb Hw.
  rewrite !C49_time_conversion_exact by (assumption || lia).
  assert (Hp : 0 < 2 ^ tc_shift c) by (apply Z.pow_pos_nonneg; lia).
  assert (Hd : a * tc_mult c / 2 ^ tc_shift c <= b * tc_mult c / 2 ^ tc_shift c).
  { apply Z.div_le_mono; [exact Hp|]. nia. }
  assert (0 <= a * tc_mult c / 2 ^ tc_shift c) by (apply Z.div_pos; [nia|exact Hp]).
  rewrite !Z.mod_small by lia. lia.
Qed.

(** With a counter of only [b] bits (cap_user_time_short, mask = 2^b - 1), the
    full counter value is recovered if it is less than 2^b after time_cycles. *)
Theorem C49_short_counter : forall c b full,
  tc_short c = true -> 0 <= b < 64 -> tc_mask c = 2 ^ b - 1 ->
  0 <= tc_cycles c -> tc_cycles c <= full < tc_cycles c + 2 ^ b -> full < 2 ^ 64 ->
  SpeTimestampToPerfTimestamp c (full mod 2 ^ b) =
  SpeTimestampToPerfTimestamp (TimeConv false (tc_cycles c) (tc_mask c) (tc_shift c) (tc_mult c) (tc_zero c)) full.
Proof.
  intros c b full Hs Hb Hm Ht Hf Hw. unfold SpeTimestampToPerfTimestamp. rewrite Hs. cbn [tc_short tc_shift tc_mult tc_zero].
  assert (Hp : 0 < 2 ^ b) by (apply Z.pow_pos_nonneg; lia).
  assert (Hlt : 2 ^ b < 2 ^ 64) by (apply Z.pow_lt_mono_r; lia).
  enough (E : u64 (tc_cycles c + Z.land (u64 (full mod 2 ^ b - tc_cycles c)) (tc_mask c)) = full) by (rewrite E; reflexivity).
  rewrite Hm. replace (2 ^ b - 1) with (Z.ones b) by (rewrite Z.ones_equiv; lia). rewrite Z.land_ones by lia.
  unfold u64 at 2. change w64 with (2 ^ 64).
  assert (Hdiv : 2 ^ 64 = 2 ^ (64 - b) * 2 ^ b) by (rewrite <- Z.pow_add_r by lia; f_equal; lia).
  rewrite Hdiv, <- Znumtheory.Zmod_div_mod; [|lia|apply Z.mul_pos_pos; [apply Z.pow_pos_nonneg|]; lia|exists (2 ^ (64 - b)); ring].
  rewrite Zminus_mod_idemp_l. rewrite (Z.mod_small (full - tc_cycles c)) by lia.
  unfold u64. change w64 with (2 ^ 64). rewrite Z.mod_small by lia. lia.
Qed.

Example C49_nonvacuous :
  SpeTimestampToPerfTimestamp (TimeConv false 0 0 10 1536 1000) 5000 = 1000 + 7500 /\
  SpeTimestampToPerfTimestamp (TimeConv true 5000 255 10 1536 1000) (5100 mod 256) = 1000 + 5100 * 1536 / 1024.
Proof. split; reflexivity. Qed.

Print Assumptions C42_latest_process.
Print Assumptions C42_unknown_thread.
Print Assumptions C42_out_of_order_refuted.
Print Assumptions C42_no_context.
Print Assumptions C49_time_conversion_exact.
Print Assumptions C49_time_conversion_monotone.
Print Assumptions C49_short_counter.
