(** Proofs about MergeChainEdges: what happens to the recorded edges. *)
From Verif Require Import Base ISort ForcedModel ChainModel ChainSpec ChainAsmProofs.

(** * Reading and writing chains *)
Lemma get_upd st id f x : (forall c, c_id (f c) = c_id c) ->
  get_chain (upd_chain st id f) x = if x =? id then option_map f (get_chain st x) else get_chain st x.
Proof.
  intros Hf. unfold get_chain, upd_chain. cbn [s_chains]. induction (s_chains st) as [|c cs IH]; cbn [map find].
  - destruct (x =? id); reflexivity.
  - assert (Q : c_id (if c_id c =? id then f c else c) = c_id c) by (destruct (c_id c =? id); auto). rewrite Q.
    destruct (Z.eqb_spec (c_id c) x) as [<-|N]; [|exact IH]. destruct (c_id c =? id); reflexivity.
Qed.
Lemma get_In st x c : get_chain st x = Some c -> In c (s_chains st) /\ c_id c = x.
Proof. unfold get_chain. intros H. apply find_some in H as [A B]. apply Z.eqb_eq in B. auto. Qed.
Lemma get_of_In st c : NoDup (map c_id (s_chains st)) -> In c (s_chains st) -> get_chain st (c_id c) = Some c.
Proof.
  unfold get_chain. induction (s_chains st) as [|d ds IH]; intros ND H; [destruct H|]. cbn [map] in ND. inversion ND; subst. cbn [find].
  destruct H as [->|H]; [rewrite Z.eqb_refl; reflexivity|]. destruct (Z.eqb_spec (c_id d) (c_id c)) as [Q|Q]; [|auto].
  exfalso. apply H2. rewrite Q. apply in_map. exact H.
Qed.
Definition out (st : state) (x y : Z) : option (list cedge) := match get_chain st x with Some c => aget Z.eqb y (c_out c) | None => None end.
Definition inn (st : state) (x y : Z) : Prop := match get_chain st y with Some c => In x (c_in c) | None => False end.
(** Everything of a chain but the maps of edges between chains. *)
Definition core_of (c : chain) := (c_id c, c_func c, c_bundles c, (c_size c, c_freq c, c_score c)).
Definition core (st : state) := map core_of (s_chains st).
Definition live (st : state) (x : Z) : Prop := exists c, get_chain st x = Some c.
Lemma core_upd st id f : (forall c, core_of (f c) = core_of c) -> core (upd_chain st id f) = core st.
Proof.
  intros H. unfold core, upd_chain. cbn [s_chains]. rewrite map_map. apply map_ext. intros c. destruct (c_id c =? id); auto.
Qed.
Lemma core_ids st st' : core st = core st' -> map c_id (s_chains st) = map c_id (s_chains st').
Proof.
  intros H. unfold core in H. assert (X : forall l, map c_id l = map (fun q => fst (fst (fst q))) (map core_of l)) by (intros l; rewrite map_map; reflexivity).
  rewrite !X, H. reflexivity.
Qed.
Lemma live_ids st x : live st x <-> In x (map c_id (s_chains st)).
Proof.
  split.
  - intros [c H]. apply get_In in H as [A <-]. apply in_map. exact A.
  - intros H. unfold live, get_chain. induction (s_chains st) as [|c cs IH]; [destruct H|]. cbn [find].
    destruct (Z.eqb_spec (c_id c) x); [eauto|]. destruct H as [H|H]; [congruence|auto].
Qed.
Lemma core_bundles st st' : core st = core st' -> flat_map c_bundles (s_chains st) = flat_map c_bundles (s_chains st').
Proof.
  intros H. unfold core in H. assert (X : forall l, flat_map c_bundles l = flat_map (fun q => snd (fst q)) (map core_of l)).
  { induction l as [|c l IH]; [reflexivity|]. cbn [flat_map map]. rewrite IH. reflexivity. }
  rewrite !X, H. reflexivity.
Qed.

(** * Moving edges between two chains *)
Definition app_opt (a : option (list cedge)) (es : list cedge) : option (list cedge) :=
  match a with Some e0 => Some (e0 ++ es) | None => Some es end.
Lemma in_insert_In x y l : In x (in_insert y l) <-> x = y \/ In x l.
Proof.
  unfold in_insert. destruct (existsb (Z.eqb y) l) eqn:E.
  - apply memz_In in E. split; [right; assumption|intros [->|H]; assumption].
  - rewrite in_app_iff. cbn [In]. intuition congruence.
Qed.
Lemma in_erase_In x y l : In x (in_erase y l) <-> In x l /\ x <> y.
Proof. unfold in_erase. rewrite filter_In. destruct (Z.eqb_spec x y); cbn; intuition congruence. Qed.
Lemma aget_aremove {V} k k2 (m : list (Z * V)) : aget Z.eqb k2 (aremove Z.eqb k m) = if k2 =? k then None else aget Z.eqb k2 m.
Proof.
  induction m as [|[k' v] m IH]; cbn [aremove aget]; [destruct (k2 =? k); reflexivity|].
  destruct (Z.eqb_spec k k') as [<-|N].
  - rewrite IH. destruct (Z.eqb_spec k2 k); reflexivity.
  - cbn [aget]. rewrite IH. destruct (Z.eqb_spec k2 k), (Z.eqb_spec k2 k'); congruence.
Qed.
Lemma akeys_aremove {V} k (m : list (Z * V)) : akeys (aremove Z.eqb k m) = filter (fun y => negb (k =? y)) (akeys m).
Proof.
  induction m as [|[k' v] m IH]; [reflexivity|]. cbn [aremove]. change (akeys ((k', v) :: m)) with (k' :: akeys m). cbn [filter].
  destruct (k =? k'); cbn [negb]; [exact IH|]. change (akeys ((k', v) :: aremove Z.eqb k m)) with (k' :: akeys (aremove Z.eqb k m)). rewrite IH. reflexivity.
Qed.
Lemma NoDup_in_insert y l : NoDup l -> NoDup (in_insert y l).
Proof.
  intros H. unfold in_insert. destruct (existsb (Z.eqb y) l) eqn:E; [exact H|]. apply NoDup_snoc; [exact H|]. apply memz_false. exact E.
Qed.
(** Key lists without duplicates. *)
Definition keys_ok (st : state) : Prop := forall c, In c (s_chains st) -> NoDup (akeys (c_out c)) /\ NoDup (c_in c).
Lemma keys_ok_upd st id f : (forall c, NoDup (akeys (c_out c)) /\ NoDup (c_in c) -> NoDup (akeys (c_out (f c))) /\ NoDup (c_in (f c))) ->
  keys_ok st -> keys_ok (upd_chain st id f).
Proof.
  intros Hf H c Hc. unfold upd_chain in Hc. cbn [s_chains] in Hc. apply in_map_iff in Hc as [d [<- Hd]].
  destruct (c_id d =? id); [apply Hf|]; apply H; exact Hd.
Qed.

Lemma move_ok st es from to : from <> to -> live st from -> live st to ->
  exists st', move_edges st es from to = Ok st' /\ core st' = core st /\ s_map st' = s_map st /\
    (forall x y, out st' x y = if (x =? from) && (y =? to) then app_opt (out st from to) es else out st x y) /\
    (forall x y, inn st' x y <-> inn st x y \/ (x = from /\ y = to /\ out st from to = None)) /\
    (keys_ok st -> keys_ok st').
Proof.
  intros NE [f Hf] [t Ht]. unfold move_edges. replace (from =? to) with false by (symmetry; apply Z.eqb_neq; exact NE). rewrite Hf.
  assert (Of : out st from to = aget Z.eqb to (c_out f)) by (unfold out; rewrite Hf; reflexivity).
  destruct (aget Z.eqb to (c_out f)) as [e0|] eqn:G.
  - eexists. split; [reflexivity|]. split; [apply core_upd; reflexivity|]. split; [reflexivity|]. split; [|split].
    + intros x y. rewrite Of. unfold out. rewrite get_upd by reflexivity. destruct (Z.eqb_spec x from) as [->|N]; cbn [andb]; [|reflexivity].
      rewrite Hf. cbn [option_map c_out set_out]. rewrite (aget_aset Z.eqb Z_eqb_reflect). destruct (y =? to); reflexivity.
    + intros x y. rewrite Of. unfold inn. rewrite get_upd by reflexivity. split; [|intros [H|[_ [_ H]]]; [|discriminate]].
      * intros H. left. destruct (y =? from); [|exact H]. destruct (get_chain st y); exact H.
      * destruct (y =? from); [|exact H]. destruct (get_chain st y); exact H.
    + apply keys_ok_upd. intros c [A B]. split; [|exact B]. cbn [c_out set_out]. apply (NoDup_akeys_aset Z.eqb Z_eqb_reflect). exact A.
  - eexists. split; [reflexivity|]. split; [rewrite core_upd, core_upd by reflexivity; reflexivity|]. split; [reflexivity|]. split; [|split].
    + intros x y. rewrite Of. unfold out. rewrite !get_upd by reflexivity. destruct (Z.eqb_spec x from) as [->|N]; cbn [andb].
      * replace (from =? to) with false by (symmetry; apply Z.eqb_neq; exact NE). rewrite Hf. cbn [option_map c_out set_out].
        rewrite (aget_aset Z.eqb Z_eqb_reflect). destruct (y =? to); reflexivity.
      * destruct (x =? to); [|reflexivity]. destruct (get_chain st x); reflexivity.
    + intros x y. rewrite Of. unfold inn. rewrite !get_upd by reflexivity. destruct (Z.eqb_spec y to) as [->|N].
      * replace (to =? from) with false by (symmetry; apply Z.eqb_neq; congruence). rewrite Ht. cbn [option_map c_in set_in]. rewrite in_insert_In. intuition congruence.
      * split; [intros H; left|intros [H|[_ [H _]]]; [|congruence]]; (destruct (y =? from); [|exact H]); destruct (get_chain st y); exact H.
    + intros K. apply keys_ok_upd; [|apply keys_ok_upd; [|exact K]].
      * intros c [A B]. split; [exact A|]. cbn [c_in set_in]. apply NoDup_in_insert. exact B.
      * intros c [A B]. split; [|exact B]. cbn [c_out set_out]. apply (NoDup_akeys_aset Z.eqb Z_eqb_reflect). exact A.
Qed.

(** * Moving edges to the bundles *)
Definition srcbid (mp : Z -> option (Z * Z)) (e : cedge) : Z := match mp (ce_src e) with Some (b, _) => b | None => 0 end.
Definition push_b (mp : Z -> option (Z * Z)) (es : list cedge) (b : bundle) : bundle :=
  set_edges b (b_edges b ++ filter (fun e => srcbid mp e =? b_id b) es).
Definition push_c (mp : Z -> option (Z * Z)) (es : list cedge) (c : chain) : chain := set_bundles c (map (push_b mp es) (c_bundles c)).
Definition push_st (st : state) (es : list cedge) : state := State (map (push_c (s_map st) es) (s_chains st)) (s_map st).
Lemma set_edges_id b : set_edges b (b_edges b) = b. Proof. destruct b; reflexivity. Qed.
Lemma push_st_nil st : push_st st [] = st.
Proof.
  destruct st as [cs mp]. unfold push_st. cbn [s_chains s_map]. f_equal. rewrite <- (map_id cs) at 2. apply map_ext. intros c.
  unfold push_c. replace (map (push_b mp []) (c_bundles c)) with (c_bundles c); [destruct c; reflexivity|].
  rewrite <- (map_id (c_bundles c)) at 1. apply map_ext. intros b. unfold push_b. cbn [filter]. rewrite app_nil_r, set_edges_id. reflexivity.
Qed.
Lemma push_st_app st es es' : push_st (push_st st es) es' = push_st st (es ++ es').
Proof.
  unfold push_st. cbn [s_chains s_map]. f_equal. rewrite map_map. apply map_ext. intros c. unfold push_c, set_bundles. cbn [c_bundles c_id c_func c_size c_freq c_score c_out c_in].
  f_equal. rewrite map_map. apply map_ext. intros b. unfold push_b, set_edges. cbn. rewrite filter_app, app_assoc. reflexivity.
Qed.
Definition placed (st : state) (n : Z) : Prop := exists bid q, s_map st n = Some (bid, q) /\ In bid (map b_id (flat_map c_bundles (s_chains st))).
Lemma push_bids st es : map b_id (flat_map c_bundles (s_chains (push_st st es))) = map b_id (flat_map c_bundles (s_chains st)).
Proof.
  unfold push_st. cbn [s_chains]. induction (s_chains st) as [|c cs IH]; [reflexivity|]. cbn [map flat_map]. rewrite !map_app, IH. f_equal.
  unfold push_c. cbn [set_bundles c_bundles]. rewrite map_map. reflexivity.
Qed.
Lemma push_placed st es n : placed (push_st st es) n <-> placed st n.
Proof. unfold placed. rewrite push_bids. reflexivity. Qed.
Lemma find_bid bid bs : In bid (map b_id bs) -> exists b, find (fun b => b_id b =? bid) bs = Some b /\ b_id b = bid /\ In b bs.
Proof.
  induction bs as [|b bs IH]; intros H; [destruct H|]. cbn [find]. destruct (Z.eqb_spec (b_id b) bid) as [Q|Q].
  - exists b. cbn. auto.
  - destruct H as [H|H]; [contradiction|]. destruct (IH H) as [b' [A [B C]]]. exists b'. cbn. auto.
Qed.
Lemma push_ok es : forall st, (forall e, In e es -> placed st (ce_src e)) -> push_edges st es = Ok (push_st st es).
Proof.
  induction es as [|e es IH]; intros st H; cbn [push_edges]; [rewrite push_st_nil; reflexivity|].
  destruct (H e (or_introl eq_refl)) as [bid [q [M B]]].
  assert (P : push_edge st e = Ok (push_st st [e])).
  { unfold push_edge, loc. rewrite M. destruct (find_bid _ _ B) as [b [F [Ib _]]]. rewrite F, Ib. f_equal. unfold push_st. f_equal.
    apply map_ext. intros c. unfold push_c. f_equal. apply map_ext. intros b'. unfold push_b, srcbid. cbn [filter]. rewrite M.
    rewrite (Z.eqb_sym bid). destruct (b_id b' =? bid); [reflexivity|]. rewrite app_nil_r, set_edges_id. reflexivity. }
  rewrite P. cbn [obind]. rewrite IH.
  - rewrite push_st_app. reflexivity.
  - intros e' He'. apply push_placed. apply H. right. exact He'.
Qed.
Lemma push_get st es x : get_chain (push_st st es) x = option_map (push_c (s_map st) es) (get_chain st x).
Proof.
  unfold get_chain, push_st. cbn [s_chains]. induction (s_chains st) as [|c cs IH]; [reflexivity|]. cbn [map find].
  change (c_id (push_c (s_map st) es c)) with (c_id c). destruct (c_id c =? x); [reflexivity|exact IH].
Qed.
Lemma push_out st es x y : out (push_st st es) x y = out st x y.
Proof. unfold out. rewrite push_get. destruct (get_chain st x); reflexivity. Qed.
Lemma push_inn st es x y : inn (push_st st es) x y <-> inn st x y.
Proof. unfold inn. rewrite push_get. destruct (get_chain st y); reflexivity. Qed.
Lemma push_live st es x : live (push_st st es) x <-> live st x.
Proof. unfold live. rewrite push_get. destruct (get_chain st x); cbn; split; intros [d H]; try discriminate; eauto. Qed.
Lemma push_keys st es : keys_ok (push_st st es) <-> keys_ok st.
Proof.
  unfold keys_ok, push_st. cbn [s_chains]. split; intros H c Hc.
  - apply (H (push_c (s_map st) es c)). apply in_map. exact Hc.
  - apply in_map_iff in Hc as [d [<- Hd]]. apply (H d Hd).
Qed.
(** The core after pushes. *)
Definition push_core (mp : Z -> option (Z * Z)) (es : list cedge) q :=
  match q with (i, f, bs, r) => (i, f, map (push_b mp es) bs, r) end : Z * option Z * list bundle * (Z * Z * Z).
Lemma core_push st es : core (push_st st es) = map (push_core (s_map st) es) (core st).
Proof. unfold core, push_st. cbn [s_chains]. rewrite !map_map. reflexivity. Qed.
Lemma push_core_app mp es es' l : map (push_core mp es') (map (push_core mp es) l) = map (push_core mp (es ++ es')) l.
Proof.
  rewrite map_map. apply map_ext. intros [[[i f] bs] r]. cbn [push_core]. do 2 f_equal. rewrite map_map. apply map_ext. intros b.
  unfold push_b, set_edges. cbn. rewrite filter_app, app_assoc. reflexivity.
Qed.
Lemma push_core_nil mp l : map (push_core mp []) l = l.
Proof.
  rewrite <- (map_id l) at 2. apply map_ext. intros [[[i f] bs] r]. cbn [push_core]. do 2 f_equal.
  rewrite <- (map_id bs) at 2. apply map_ext. intros b. unfold push_b. cbn [filter]. rewrite app_nil_r, set_edges_id. reflexivity.
Qed.
Lemma core_push_ids mp es (st st' : state) : core st' = map (push_core mp es) (core st) -> map c_id (s_chains st') = map c_id (s_chains st).
Proof.
  intros H. unfold core in H. assert (X : forall l, map c_id l = map (fun q => fst (fst (fst q))) (map core_of l)) by (intros l; rewrite map_map; reflexivity).
  rewrite !X, H, !map_map. reflexivity.
Qed.
Lemma core_push_bids mp es (st st' : state) : core st' = map (push_core mp es) (core st) ->
  map b_id (flat_map c_bundles (s_chains st')) = map b_id (flat_map c_bundles (s_chains st)).
Proof.
  intros H. unfold core in H.
  assert (X : forall l, map b_id (flat_map c_bundles l) = flat_map (fun q : Z * option Z * list bundle * (Z * Z * Z) => map b_id (snd (fst q))) (map core_of l)).
  { induction l as [|c l IH]; [reflexivity|]. cbn [flat_map map]. rewrite map_app, IH. reflexivity. }
  rewrite !X, H. clear. induction (map core_of (s_chains st)) as [|[[[i f] bs] r] l IH]; [reflexivity|]. cbn [map flat_map push_core fst snd]. rewrite IH. f_equal.
  rewrite map_map. reflexivity.
Qed.

(** * The two loops *)
Definition chs (st st' : state) (es : list cedge) : Prop := core st' = map (push_core (s_map st) es) (core st) /\ s_map st' = s_map st.
Lemma chs_refl st : chs st st []. Proof. split; [rewrite push_core_nil|]; reflexivity. Qed.
Lemma chs_trans st st1 st2 es es' : chs st st1 es -> chs st1 st2 es' -> chs st st2 (es ++ es').
Proof. intros [A B] [C D]. split; [rewrite C, A, B, push_core_app; reflexivity|congruence]. Qed.
Lemma chs_push st es : chs st (push_st st es) es. Proof. split; [apply core_push|reflexivity]. Qed.
Lemma chs_core st st' : core st' = core st -> s_map st' = s_map st -> chs st st' []. Proof. intros A B. split; [rewrite push_core_nil|]; assumption. Qed.
Lemma chs_live st st' es x : chs st st' es -> (live st' x <-> live st x).
Proof. intros [A _]. rewrite !live_ids, (core_push_ids _ _ _ _ A). reflexivity. Qed.
Lemma chs_placed st st' es n : chs st st' es -> (placed st' n <-> placed st n).
Proof. intros [A B]. unfold placed. rewrite (core_push_bids _ _ _ _ A), B. reflexivity. Qed.

Lemma erase_in_ok st ch other : let st' := upd_chain st ch (fun c => set_in c (in_erase other (c_in c))) in
  chs st st' [] /\ (forall x y, out st' x y = out st x y) /\ (forall x y, inn st' x y <-> inn st x y /\ ~ (x = other /\ y = ch)) /\ (keys_ok st -> keys_ok st').
Proof.
  intros st'. unfold st'. split; [apply chs_core; [apply core_upd|]; reflexivity|]. split; [|split].
  - intros x y. unfold out. rewrite get_upd by reflexivity. destruct (x =? ch); [|reflexivity]. destruct (get_chain st x); reflexivity.
  - intros x y. unfold inn. rewrite get_upd by reflexivity. destruct (Z.eqb_spec y ch) as [->|N].
    + destruct (get_chain st ch) as [c|]; cbn [option_map c_in set_in]; [rewrite in_erase_In|]; tauto.
    + destruct (get_chain st y); intuition.
  - apply keys_ok_upd. intros c [A B]. split; [exact A|]. cbn [c_in set_in]. apply NoDup_filter. exact B.
Qed.
Lemma erase_out_ok st ch other : let st' := upd_chain st ch (fun c => set_out c (aremove Z.eqb other (c_out c))) in
  chs st st' [] /\ (forall x y, out st' x y = if (x =? ch) && (y =? other) then None else out st x y) /\ (forall x y, inn st' x y <-> inn st x y) /\ (keys_ok st -> keys_ok st').
Proof.
  intros st'. unfold st'. split; [apply chs_core; [apply core_upd|]; reflexivity|]. split; [|split].
  - intros x y. unfold out. rewrite get_upd by reflexivity. destruct (x =? ch); cbn [andb]; [|reflexivity].
    destruct (get_chain st x) as [c|]; cbn [option_map c_out set_out]; [rewrite aget_aremove; reflexivity|destruct (y =? other); reflexivity].
  - intros x y. unfold inn. rewrite get_upd by reflexivity. destruct (y =? ch); [|reflexivity]. destruct (get_chain st y); reflexivity.
  - apply keys_ok_upd. intros c [A B]. split; [|exact B]. cbn [c_out set_out]. rewrite akeys_aremove. apply NoDup_filter. exact A.
Qed.
Lemma bool_and_eq a b c d : (a =? b) && (c =? d) = true <-> a = b /\ c = d.
Proof. rewrite andb_true_iff, !Z.eqb_eq. reflexivity. Qed.

Section Loops.
  Context (this other : Z) (NTO : this <> other).
  Definition agetd (k : Z) (m : list (Z * list cedge)) : list cedge := match aget Z.eqb k m with Some es => es | None => [] end.
  Lemma merge_outs_ok L : forall st, NoDup (akeys L) -> (forall k, In k (akeys L) -> live st k /\ k <> other) -> live st this ->
    (forall e, In e (agetd this L) -> placed st (ce_src e)) ->
    (forall y, out st this y <> None -> live st y -> inn st this y) ->
    exists st', merge_outs st this other L = Ok st' /\ chs st st' (agetd this L) /\
      (forall x y, out st' x y = if (x =? this) && negb (y =? this) then match aget Z.eqb y L with Some es => app_opt (out st this y) es | None => out st this y end else out st x y) /\
      (forall x y, live st y -> (inn st' x y <-> if memz y (akeys L) then x <> other /\ ((x = this /\ y <> this) \/ inn st x y) else inn st x y)) /\
      (keys_ok st -> keys_ok st').
  Proof.
    induction L as [|[ch es] L IH]; intros st ND HL LT HP HI; cbn [merge_outs].
    - exists st. split; [reflexivity|]. split; [apply chs_refl|]. split; [|split; [|auto]].
      + intros x y. cbn [aget]. destruct (Z.eqb_spec x this) as [->|]; cbn [andb]; [|reflexivity]. destruct (negb (y =? this)); reflexivity.
      + intros x y _. cbn. reflexivity.
    - change (akeys ((ch, es) :: L)) with (ch :: akeys L) in *. inversion ND as [|? ? Hn ND']; subst.
      destruct (HL ch (or_introl eq_refl)) as [Lch Nch]. replace (ch =? other) with false by (symmetry; apply Z.eqb_neq; exact Nch).
      destruct (Z.eq_dec this ch) as [Q|Q].
      + subst ch. unfold move_edges. rewrite Z.eqb_refl.
        assert (PE : agetd this ((this, es) :: L) = es) by (unfold agetd; cbn [aget]; rewrite Z.eqb_refl; reflexivity). rewrite PE in *.
        rewrite push_ok by exact HP. cbn [obind]. set (st0 := push_st st es). pose proof (chs_push st es) as C0. fold st0 in C0.
        destruct (erase_in_ok st0 this other) as [C1 [O1 [I1 K1]]]. set (st1 := upd_chain st0 this _) in *.
        pose proof (chs_trans _ _ _ _ _ C0 C1) as C. rewrite app_nil_r in C.
        assert (AG : agetd this L = []) by (unfold agetd; assert (aget Z.eqb this L = None) as -> by (apply (aget_None_iff Z.eqb Z_eqb_reflect); exact Hn); reflexivity).
        destruct (IH st1) as [st' [E2 [C2 [O2 [I2 K2]]]]].
        * exact ND'.
        * intros k Hk. rewrite (chs_live _ _ _ k C). apply HL. right. exact Hk.
        * rewrite (chs_live _ _ _ _ C). exact LT.
        * rewrite AG. intros e [].
        * intros y Hy Ly. apply I1. unfold st0. rewrite push_inn. split; [|intuition].
          apply HI; [rewrite O1 in Hy; unfold st0 in Hy; rewrite push_out in Hy; exact Hy|]. rewrite <- (chs_live _ _ _ _ C). exact Ly.
        * exists st'. split; [exact E2|]. split; [pose proof (chs_trans _ _ _ _ _ C C2) as C3; rewrite AG, app_nil_r in C3; exact C3|]. split; [|split].
          -- intros x y. rewrite O2, !O1. unfold st0. rewrite !push_out. cbn [aget]. destruct (Z.eqb_spec x this) as [->|]; cbn [andb]; [|reflexivity].
             destruct (y =? this); reflexivity.
          -- intros x y Ly. rewrite I2 by (rewrite (chs_live _ _ _ _ C); exact Ly). pose proof (I1 x y) as J1. unfold st0 in J1. rewrite push_inn in J1.
             unfold memz. cbn [existsb]. fold (memz y (akeys L)). destruct (Z.eqb_spec y this) as [->|Ny]; cbn [orb].
             ++ assert (memz this (akeys L) = false) as -> by (apply memz_false; exact Hn). intuition.
             ++ destruct (memz y (akeys L)); intuition.
          -- intros K. apply K2, K1. unfold st0. rewrite push_keys. exact K.
      + destruct (move_ok st es this ch Q LT Lch) as [st0 [E0 [D0 [M0 [O0 [I0 K0]]]]]]. rewrite E0. cbn [obind].
        pose proof (chs_core st st0 D0 M0) as C0.
        destruct (erase_in_ok st0 ch other) as [C1 [O1 [I1 K1]]]. set (st1 := upd_chain st0 ch _) in *.
        pose proof (chs_trans _ _ _ _ _ C0 C1) as C. cbn [app] in C.
        assert (AG : agetd this ((ch, es) :: L) = agetd this L) by (unfold agetd; cbn [aget]; replace (this =? ch) with false by (symmetry; apply Z.eqb_neq; exact Q); reflexivity).
        rewrite AG in *.
        destruct (IH st1) as [st' [E2 [C2 [O2 [I2 K2]]]]].
        * exact ND'.
        * intros k Hk. rewrite (chs_live _ _ _ k C). apply HL. right. exact Hk.
        * rewrite (chs_live _ _ _ _ C). exact LT.
        * intros e He. rewrite (chs_placed _ _ _ _ C). apply HP. exact He.
        * intros y Hy Ly. rewrite (chs_live _ _ _ _ C) in Ly. apply I1. rewrite O1, O0 in Hy. rewrite (Z.eqb_refl this) in Hy. cbn [andb] in Hy.
          split; [|intuition]. apply I0. destruct (Z.eq_dec y ch) as [Qy|Ny]; [rewrite Qy in *|replace (y =? ch) with false in Hy by (symmetry; apply Z.eqb_neq; exact Ny)].
          -- destruct (out st this ch) eqn:X; [left; apply HI; [congruence|exact Ly]|right; auto].
          -- left. apply HI; assumption.
        * exists st'. split; [exact E2|]. split; [exact (chs_trans _ _ _ _ _ C C2)|]. split; [|split].
          -- intros x y. rewrite O2, !O1, !O0. rewrite Z.eqb_refl. cbn [andb aget].
             destruct (Z.eqb_spec x this) as [->|Nx]; cbn [andb]; [|reflexivity].
             destruct (Z.eqb_spec y this) as [->|Ny]; cbn [negb].
             ++ destruct (Z.eqb_spec this ch); [congruence|reflexivity].
             ++ destruct (Z.eqb_spec y ch) as [->|]; [|reflexivity]. assert (aget Z.eqb ch L = None) as -> by (apply (aget_None_iff Z.eqb Z_eqb_reflect); exact Hn). reflexivity.
          -- intros x y Ly. rewrite I2 by (rewrite (chs_live _ _ _ _ C); exact Ly). pose proof (I1 x y) as J1. rewrite I0 in J1.
             unfold memz. cbn [existsb]. fold (memz y (akeys L)). destruct (Z.eqb_spec y ch) as [->|Ny]; cbn [orb].
             ++ assert (memz ch (akeys L) = false) as -> by (apply memz_false; exact Hn).
                rewrite J1. split.
                ** intros [[A|[-> [_ A]]] B]; split; [intuition|right; exact A|congruence|left; auto].
                ** intros [A [[-> B]|B]]; (split; [|intuition]); [|left; exact B].
                   destruct (out st this ch) eqn:X; [left; apply HI; [congruence|exact Ly]|right; auto].
             ++ destruct (memz y (akeys L)); intuition congruence.
          -- intros K. apply K2, K1, K0. exact K.
  Qed.

  Lemma merge_ins_ok M : forall st, NoDup M -> (forall k, In k M -> live st k /\ k <> other /\ out st k other <> None) -> live st this ->
    (In this M -> forall es e, out st this other = Some es -> In e es -> placed st (ce_src e)) ->
    (forall x, In x M -> out st x this <> None -> inn st x this) ->
    exists st', merge_ins st this other M = Ok st' /\
      chs st st' (if memz this M then match out st this other with Some es => es | None => [] end else []) /\
      (forall x y, out st' x y = if memz x M then (if y =? other then None else if (y =? this) && negb (x =? this) then
                                    match out st x other with Some es => app_opt (out st x this) es | None => out st x y end else out st x y)
                                 else out st x y) /\
      (forall x y, inn st' x y <-> inn st x y \/ (y = this /\ In x M /\ x <> this)) /\
      (keys_ok st -> keys_ok st').
  Proof.
    induction M as [|ch M IH]; intros st ND HM LT HP HI; cbn [merge_ins].
    - exists st. split; [reflexivity|]. split; [apply chs_refl|]. split; [intros; reflexivity|]. split; [|auto]. intros x y. cbn. intuition.
    - inversion ND as [|? ? Hn ND']; subst. destruct (HM ch (or_introl eq_refl)) as [Lch [Nch Och]].
      replace (ch =? other) with false by (symmetry; apply Z.eqb_neq; exact Nch).
      destruct Lch as [c Hc]. rewrite Hc. assert (X : out st ch other = aget Z.eqb other (c_out c)) by (unfold out; rewrite Hc; reflexivity).
      rewrite <- X. destruct (out st ch other) as [es|] eqn:Oe; [|congruence]. clear X c Hc.
      assert (LchX : live st ch) by (apply HM; left; reflexivity).
      destruct (Z.eq_dec ch this) as [Q|Q].
      + subst ch. unfold move_edges. rewrite Z.eqb_refl. rewrite push_ok by (intros e He; eapply HP; [left; reflexivity|exact Oe|exact He]). cbn [obind].
        set (st0 := push_st st es). pose proof (chs_push st es) as C0. fold st0 in C0.
        destruct (erase_out_ok st0 this other) as [C1 [O1 [I1 K1]]]. set (st1 := upd_chain st0 this _) in *.
        pose proof (chs_trans _ _ _ _ _ C0 C1) as C. rewrite app_nil_r in C.
        assert (MT : memz this M = false) by (apply memz_false; exact Hn).
        assert (O1' : forall x y, x <> this -> out st1 x y = out st x y) by (intros x y Hx; rewrite O1; replace (x =? this) with false by (symmetry; apply Z.eqb_neq; exact Hx); cbn [andb]; unfold st0; apply push_out).
        destruct (IH st1) as [st' [E2 [C2 [O2 [I2 K2]]]]].
        * exact ND'.
        * intros k Hk. rewrite (chs_live _ _ _ k C). assert (k <> this) by (intros ->; contradiction). rewrite O1' by assumption. apply HM. right. exact Hk.
        * rewrite (chs_live _ _ _ _ C). exact LT.
        * intros H; contradiction.
        * intros x Hx Hy. assert (x <> this) by (intros ->; contradiction). rewrite O1' in Hy by assumption. apply I1. unfold st0. rewrite push_inn. apply HI; [right; exact Hx|exact Hy].
        * exists st'. split; [exact E2|]. rewrite MT in C2. assert (MM : memz this (this :: M) = true) by (apply memz_In; left; reflexivity). rewrite MM, Oe.
          split; [pose proof (chs_trans _ _ _ _ _ C C2) as C3; rewrite app_nil_r in C3; exact C3|]. split; [|split].
          -- intros x y. rewrite O2. unfold memz. cbn [existsb]. fold (memz x M). destruct (Z.eqb_spec x this) as [->|Nx]; cbn [orb].
             ++ rewrite MT, O1, Z.eqb_refl. cbn [andb negb]. rewrite andb_false_r. unfold st0. rewrite push_out. reflexivity.
             ++ rewrite !O1' by exact Nx. reflexivity.
          -- intros x y. rewrite I2, I1. unfold st0. rewrite push_inn. cbn [In]. intuition congruence.
          -- intros K. apply K2, K1. unfold st0. rewrite push_keys. exact K.
      + destruct (move_ok st es ch this Q LchX LT) as [st0 [E0 [D0 [M0 [O0 [I0 K0]]]]]]. rewrite E0. cbn [obind].
        pose proof (chs_core st st0 D0 M0) as C0.
        destruct (erase_out_ok st0 ch other) as [C1 [O1 [I1 K1]]]. set (st1 := upd_chain st0 ch _) in *.
        pose proof (chs_trans _ _ _ _ _ C0 C1) as C. cbn [app] in C.
        assert (O1' : forall x y, x <> ch -> out st1 x y = out st x y) by (intros x y Hx; rewrite O1, O0; replace (x =? ch) with false by (symmetry; apply Z.eqb_neq; exact Hx); reflexivity).
        assert (Oto : out st1 this other = out st this other) by (apply O1'; congruence).
        destruct (IH st1) as [st' [E2 [C2 [O2 [I2 K2]]]]].
        * exact ND'.
        * intros k Hk. rewrite (chs_live _ _ _ k C). assert (k <> ch) by (intros ->; contradiction). rewrite O1' by assumption. apply HM. right. exact Hk.
        * rewrite (chs_live _ _ _ _ C). exact LT.
        * intros H es' e. rewrite Oto. intros A B. rewrite (chs_placed _ _ _ _ C). eapply HP; [right; exact H|exact A|exact B].
        * intros x Hx Hy. assert (x <> ch) by (intros ->; contradiction). rewrite O1' in Hy by assumption. apply I1, I0. left. apply HI; [right; exact Hx|exact Hy].
        * exists st'. split; [exact E2|].
          assert (MT : memz this (ch :: M) = memz this M) by (unfold memz; cbn [existsb]; replace (this =? ch) with false by (symmetry; apply Z.eqb_neq; congruence); reflexivity).
          rewrite MT, <- Oto. split; [exact (chs_trans _ _ _ _ _ C C2)|]. split; [|split].
          -- intros x y. rewrite O2. unfold memz. cbn [existsb]. fold (memz x M). destruct (Z.eqb_spec x ch) as [->|Nx]; cbn [orb].
             ++ assert (memz ch M = false) as -> by (apply memz_false; exact Hn). rewrite O1, O0, Z.eqb_refl. cbn [andb].
                destruct (Z.eqb_spec y other) as [->|Ny]; [reflexivity|]. rewrite Oe.
                replace (ch =? this) with false by (symmetry; apply Z.eqb_neq; exact Q). cbn [negb]. rewrite andb_true_r.
                destruct (Z.eqb_spec y this) as [->|]; reflexivity.
             ++ rewrite !O1' by exact Nx. reflexivity.
          -- intros x y. rewrite I2, I1, I0. cbn [In]. split.
             ++ intros [[A|[-> [-> A]]]|[A [B D]]]; auto.
             ++ intros [A|[-> [[<-|B] D]]]; auto. destruct (out st ch this) eqn:X; [|auto]. left. left. apply HI; [left; reflexivity|congruence].
          -- intros K. apply K2, K1, K0. exact K.
  Qed.
End Loops.
