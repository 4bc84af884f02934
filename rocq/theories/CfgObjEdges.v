(** Proofs for C72: creating and updating edges. *)
From Verif Require Import Base CfgFreqModel CfgObjModel CfgObjSpec CfgObjProofs.

Definition with_nodes (g : cfg) (ns : list cnode) : cfg :=
  Cfg (g_section g) (g_index g) (g_module g) (g_names g) ns (g_pads g) (g_clones g) (g_paths g) (g_intra g) (g_inter g).

Lemma cfg_at_upd st r h f : cfg_at (upd_node st r h) f =
  if f =? fst r then option_map (fun g => with_nodes g (upd (g_nodes g) (snd r) h)) (cfg_at st f) else cfg_at st f.
Proof.
  unfold upd_node. destruct (cfg_at st (fst r)) as [g|] eqn:E.
  - unfold cfg_at in *. cbn [s_cfgs]. rewrite aget_aset_z. destruct (Z.eqb_spec f (fst r)) as [->|]; [|reflexivity].
    rewrite E. reflexivity.
  - destruct (Z.eqb_spec f (fst r)) as [->|]; [|reflexivity]. rewrite E. reflexivity.
Qed.
Lemma keys_upd st r h : map fst (s_cfgs (upd_node st r h)) = map fst (s_cfgs st).
Proof.
  unfold upd_node. destruct (cfg_at st (fst r)) as [g|] eqn:E; [|reflexivity]. cbn [s_cfgs].
  apply aset_keys. exact (aget_Some_key _ _ _ E).
Qed.
Lemma edges_upd st r h : s_edges (upd_node st r h) = s_edges st.
Proof. unfold upd_node. destruct (cfg_at st (fst r)); reflexivity. Qed.

Definition with_edge (intra : bool) (e : nat) (g : cfg) : cfg :=
  Cfg (g_section g) (g_index g) (g_module g) (g_names g) (g_nodes g) (g_pads g) (g_clones g) (g_paths g)
      (if intra then g_intra g ++ [e] else g_intra g) (if intra then g_inter g else g_inter g ++ [e]).
Lemma cfg_at_push b e f st f' : cfg_at (push_edge b e f st) f' =
  if f' =? f then option_map (with_edge b e) (cfg_at st f') else cfg_at st f'.
Proof.
  unfold push_edge. destruct (cfg_at st f) as [g|] eqn:E.
  - unfold cfg_at in *. cbn [s_cfgs]. rewrite aget_aset_z. destruct (Z.eqb_spec f' f) as [->|]; [|reflexivity].
    rewrite E. reflexivity.
  - destruct (Z.eqb_spec f' f) as [->|]; [|reflexivity]. rewrite E. reflexivity.
Qed.
Lemma keys_push b e f st : map fst (s_cfgs (push_edge b e f st)) = map fst (s_cfgs st).
Proof.
  unfold push_edge. destruct (cfg_at st f) as [g|] eqn:E; [|reflexivity]. cbn [s_cfgs].
  apply aset_keys. exact (aget_Some_key _ _ _ E).
Qed.
Lemma edges_push b e f st : s_edges (push_edge b e f st) = s_edges st.
Proof. unfold push_edge. destruct (cfg_at st f); reflexivity. Qed.

(** What pushing an edge from [a] to [b] does to the node at [r]. *)
Definition touch (intra : bool) (a b : nref) (e : nat) (r : nref) (n : cnode) : cnode :=
  let n1 := if nref_eqb a r then (if intra then push_intra_out e n else push_inter_out e n) else n in
  if nref_eqb b r then (if intra then push_intra_in e n1 else push_inter_in e n1) else n1.

Lemma touch_info intra a b e r n :
  n_func (touch intra a b e r n) = n_func n /\ n_bb (touch intra a b e r n) = n_bb n /\
  n_clone (touch intra a b e r n) = n_clone n /\ n_bbid (touch intra a b e r n) = n_bbid n /\
  n_index (touch intra a b e r n) = n_index n /\ n_addr (touch intra a b e r n) = n_addr n /\
  n_size (touch intra a b e r n) = n_size n /\ n_pad (touch intra a b e r n) = n_pad n /\
  n_flags (touch intra a b e r n) = n_flags n /\ n_freq (touch intra a b e r n) = n_freq n.
Proof. unfold touch. destruct (nref_eqb a r), (nref_eqb b r), intra; cbn; auto 20. Qed.
Lemma touch_lists intra a b e r n :
  n_intra_outs (touch intra a b e r n) = n_intra_outs n ++ (if nref_eqb a r && intra then [e] else []) /\
  n_intra_ins (touch intra a b e r n) = n_intra_ins n ++ (if nref_eqb b r && intra then [e] else []) /\
  n_inter_outs (touch intra a b e r n) = n_inter_outs n ++ (if nref_eqb a r && negb intra then [e] else []) /\
  n_inter_ins (touch intra a b e r n) = n_inter_ins n ++ (if nref_eqb b r && negb intra then [e] else []).
Proof. unfold touch. destruct (nref_eqb a r), (nref_eqb b r), intra; cbn; rewrite ?app_nil_r; auto. Qed.
Lemma shows_node_touch intra a b e r n F p id : shows_node F p id n -> shows_node F p id (touch intra a b e r n).
Proof.
  destruct (touch_info intra a b e r n) as (E1 & E2 & E3 & E4 & E5 & E6 & E7 & E8 & E9 & E10).
  unfold shows_node, addr. rewrite E1, E2, E3, E4, E5, E6, E7, E8, E9, E10. auto.
Qed.

(** The cfg of [f] after the push. *)
Definition pushed (intra : bool) (a b : nref) (e : nat) (st : state) : state :=
  push_edge intra e (fst a)
    (upd_node (upd_node st a (if intra then push_intra_out e else push_inter_out e)) b
              (if intra then push_intra_in e else push_inter_in e)).

Lemma pushed_cfg intra a b e st f g : cfg_at st f = Some g ->
  exists g', cfg_at (pushed intra a b e st) f = Some g' /\
    g_index g' = g_index g /\ g_section g' = g_section g /\ g_module g' = g_module g /\ g_names g' = g_names g /\
    g_pads g' = g_pads g /\ g_clones g' = g_clones g /\ g_paths g' = g_paths g /\
    length (g_nodes g') = length (g_nodes g) /\
    (forall p, nth_error (g_nodes g') p = option_map (touch intra a b e (f, p)) (nth_error (g_nodes g) p)) /\
    g_intra g' = g_intra g ++ (if (fst a =? f) && intra then [e] else []) /\
    g_inter g' = g_inter g ++ (if (fst a =? f) && negb intra then [e] else []).
Proof.
  intros H. unfold pushed. rewrite cfg_at_push, !cfg_at_upd, H.
  set (h1 := if intra then push_intra_out e else push_inter_out e).
  set (h2 := if intra then push_intra_in e else push_inter_in e).
  set (g1 := if f =? fst a then with_nodes g (upd (g_nodes g) (snd a) h1) else g).
  set (g2 := if f =? fst b then with_nodes g1 (upd (g_nodes g1) (snd b) h2) else g1).
  exists (if f =? fst a then with_edge intra e g2 else g2).
  split.
  { subst g2 g1. destruct (f =? fst a), (f =? fst b); reflexivity. }
  assert (E2 : g_index g2 = g_index g /\ g_section g2 = g_section g /\ g_module g2 = g_module g /\ g_names g2 = g_names g /\
    g_pads g2 = g_pads g /\ g_clones g2 = g_clones g /\ g_paths g2 = g_paths g /\ g_intra g2 = g_intra g /\ g_inter g2 = g_inter g).
  { subst g2 g1. destruct (f =? fst a), (f =? fst b); cbn; auto 20. }
  assert (E3 : g_nodes (if f =? fst a then with_edge intra e g2 else g2) = g_nodes g2) by (destruct (f =? fst a); reflexivity).
  destruct E2 as (e1 & e2 & e3 & e4 & e5 & e6 & e7 & e8 & e9).
  rewrite E3.
  split; [destruct (f =? fst a); exact e1|]. split; [destruct (f =? fst a); exact e2|].
  split; [destruct (f =? fst a); exact e3|]. split; [destruct (f =? fst a); exact e4|].
  split; [destruct (f =? fst a); exact e5|]. split; [destruct (f =? fst a); exact e6|].
  split; [destruct (f =? fst a); exact e7|].
  split.
  { subst g2 g1. destruct (f =? fst a), (f =? fst b); cbn [with_nodes g_nodes]; rewrite ?upd_length; reflexivity. }
  split.
  { intros p. unfold touch, nref_eqb. cbn [fst snd]. rewrite (Z.eqb_sym (fst a)), (Z.eqb_sym (fst b)).
    subst g2 g1. destruct (f =? fst a), (f =? fst b); cbn [with_nodes g_nodes andb]; rewrite ?nth_error_upd;
    destruct (snd a =? p)%nat, (snd b =? p)%nat; destruct (nth_error (g_nodes g) p); cbn [option_map];
    subst h1 h2; destruct intra; reflexivity. }
  rewrite (Z.eqb_sym (fst a)). destruct (f =? fst a); cbn [andb with_edge g_intra g_inter]; rewrite e8, e9;
  destruct intra; cbn [negb]; rewrite ?app_nil_r; auto.
Qed.
Lemma pushed_keys intra a b e st : map fst (s_cfgs (pushed intra a b e st)) = map fst (s_cfgs st).
Proof. unfold pushed. rewrite keys_push, !keys_upd. reflexivity. Qed.
Lemma pushed_edges intra a b e st : s_edges (pushed intra a b e st) = s_edges st.
Proof. unfold pushed. rewrite edges_push, !edges_upd. reflexivity. Qed.

Section Create.
Variables (P : list func) (clf : func -> list nat) (pathf : func -> list (list full_id)) (A : list aedge) (st : state).
Hypothesis V : Inv P clf pathf A st.

Lemma create_inv a b s d w k isec :
  rname P clf a s -> rname P clf b d ->
  Inv P clf pathf (A ++ [AEdge s d w k isec])
    (pushed (fst a =? fst b) a b (length (s_edges st)) (State (s_cfgs st) (s_edges st ++ [CEdge a b w k isec]))).
Proof.
  intros Ra Rb. set (st1 := State (s_cfgs st) (s_edges st ++ [CEdge a b w k isec])).
  constructor.
  - exact (v_nodup _ _ _ _ _ V).
  - rewrite pushed_keys. exact (v_keys _ _ _ _ _ V).
  - exact (v_cl _ _ _ _ _ V).
  - intros F HF. destruct (v_fns _ _ _ _ _ V F HF) as (g & Hg & I).
    destruct (pushed_cfg (fst a =? fst b) a b (length (s_edges st)) st1 (f_index F) g Hg)
      as (g' & Hg' & e1 & e2 & e3 & e4 & e5 & e6 & e7 & e8 & e9 & e10 & e11).
    exists g'. split; [exact Hg'|]. rewrite pushed_edges. unfold st1. cbn [s_edges].
    destruct I as [i1 i2 i3 i4 i5 i6 i7 i8 i9 i10 i11 i12 i13].
    constructor; [congruence|congruence|congruence|congruence|congruence| | | |congruence|congruence| | |].
    + intros p id n Hid Hn. rewrite e9 in Hn. destruct (nth_error (g_nodes g) p) as [n0|] eqn:En; [|discriminate].
      cbn [option_map] in Hn. injection Hn as <-. apply shows_node_touch. exact (i6 p id n0 Hid En).
    + intros b0. rewrite e6. apply i7.
    + intros b0. rewrite e6. apply i8.
    + rewrite e10, i11, sel_snoc. unfold t_inside. cbn [e_src e_sink]. f_equal.
      destruct (Z.eqb_spec (fst a) (f_index F)) as [Ea|]; [|reflexivity]. cbn [andb].
      rewrite <- Ea, (Z.eqb_sym (fst a)). destruct (fst b =? fst a); reflexivity.
    + rewrite e11, i12, sel_snoc. unfold t_leaving. cbn [e_src e_sink]. f_equal.
      destruct (Z.eqb_spec (fst a) (f_index F)) as [Ea|]; [|reflexivity]. cbn [andb].
      rewrite <- Ea, (Z.eqb_sym (fst a)). destruct (fst b =? fst a); reflexivity.
    + intros p n Hn. rewrite e9 in Hn. destruct (nth_error (g_nodes g) p) as [n0|] eqn:En; [|discriminate].
      cbn [option_map] in Hn. injection Hn as <-. destruct (i13 p n0 En) as (j1 & j2 & j3 & j4).
      destruct (touch_lists (fst a =? fst b) a b (length (s_edges st)) (f_index F, p) n0) as (k1 & k2 & k3 & k4).
      rewrite k1, k2, k3, k4, j1, j2, j3, j4, !sel_snoc. unfold t_inside, t_leaving, t_entering. cbn [e_src e_sink].
      split; [|split; [|split]]; f_equal.
      * destruct (nref_eqb_spec a (f_index F, p)) as [->|]; [|reflexivity]. cbn [fst andb]. rewrite Z.eqb_refl. cbn [andb].
        rewrite (Z.eqb_sym (fst b)). reflexivity.
      * destruct (nref_eqb_spec b (f_index F, p)) as [->|]; [|reflexivity]. cbn [fst andb]. rewrite Z.eqb_refl, andb_true_r. reflexivity.
      * destruct (nref_eqb_spec a (f_index F, p)) as [->|]; [|reflexivity]. cbn [fst andb]. rewrite Z.eqb_refl. cbn [andb].
        rewrite (Z.eqb_sym (fst b)). reflexivity.
      * destruct (nref_eqb_spec b (f_index F, p)) as [->|]; [|reflexivity]. cbn [fst andb]. rewrite Z.eqb_refl, andb_true_r. reflexivity.
  - rewrite pushed_edges. unfold st1. cbn [s_edges]. apply Forall2_app; [exact (v_edges _ _ _ _ _ V)|].
    constructor; [|constructor]. split; [exact Ra|]. split; [exact Rb|]. cbn. auto.
Qed.

Lemma inside_rel f e x : erel P clf e x -> t_inside f e = inside f x.
Proof. intros ((E1 & _) & (E2 & _) & _). unfold t_inside, inside. rewrite E1, E2. reflexivity. Qed.
Lemma leaving_rel f e x : erel P clf e x -> t_leaving f e = leaving f x.
Proof. intros ((E1 & _) & (E2 & _) & _). unfold t_leaving, leaving. rewrite E1, E2. reflexivity. Qed.
Lemma entering_rel f e x : erel P clf e x -> t_entering f e = entering f x.
Proof. intros ((E1 & _) & (E2 & _) & _). unfold t_entering, entering. rewrite E1, E2. reflexivity. Qed.

Definition blocked (s d : node_name) : Prop := exists x, In x A /\ a_src x = s /\ a_sink x = d.

Lemma create_spec dbg a b s d w k isec :
  rname P clf a s -> rname P clf b d ->
  (may_create dbg A s d isec ->
   CreateEdge dbg (fst a) a b w k isec st =
   Ok (pushed (fst a =? fst b) a b (length (s_edges st)) (State (s_cfgs st) (s_edges st ++ [CEdge a b w k isec])))) /\
  (~ may_create dbg A s d isec -> CreateEdge dbg (fst a) a b w k isec st = Abort).
Proof.
  intros Ra Rb.
  destruct (node_at_rname _ _ _ _ _ V _ _ Ra) as (na & Ha & Na).
  destruct (node_at_rname _ _ _ _ _ V _ _ Rb) as (nb' & Hb & Nb).
  pose proof Ra as (Ea & F & HF & EF & _). pose proof Rb as (Eb & _).
  destruct (v_fns _ _ _ _ _ V F HF) as (g & Hg & I). rewrite EF in Hg.
  unfold CreateEdge. rewrite Hg, Ha, Hb.
  assert (n_func na = fst a) as -> by (rewrite <- Ea, <- Na; reflexivity).
  assert (n_func nb' = fst b) as -> by (rewrite <- Eb, <- Nb; reflexivity).
  unfold may_create. rewrite Ea, Eb.
  assert (DI : has_duplicates st a b (g_intra g) = true <-> exists x, In x A /\ inside (fst a) x = true /\ a_src x = s /\ a_sink x = d).
  { unfold has_duplicates. rewrite (i_intra _ _ _ _ _ I), EF.
    apply (edge_exists _ _ _ _ _ V a b s d _ _ Ra Rb (inside_rel (fst a))). }
  assert (DL : has_duplicates st a b (g_inter g) = true <-> exists x, In x A /\ leaving (fst a) x = true /\ a_src x = s /\ a_sink x = d).
  { unfold has_duplicates. rewrite (i_inter _ _ _ _ _ I), EF.
    apply (edge_exists _ _ _ _ _ V a b s d _ _ Ra Rb (leaving_rel (fst a))). }
  destruct (Z.eqb_spec (fst a) (fst b)) as [Q|Q].
  - rewrite andb_true_r. split.
    + intros [-> NB]. destruct (has_duplicates st a b (g_intra g)) eqn:D.
      * exfalso. destruct (proj1 DI eq_refl) as (x & Hx & _ & H1 & H2). exact (NB x Hx (conj H1 H2)).
      * reflexivity.
    + intros NM. destruct isec; [reflexivity|]. destruct (has_duplicates st a b (g_intra g)) eqn:D; [reflexivity|].
      exfalso. apply NM. split; [reflexivity|]. intros x Hx [H1 H2].
      assert (false = true); [|discriminate]. apply DI. exists x. split; [exact Hx|]. split; [|auto].
      unfold inside. rewrite H1, H2, Ea, Eb, <- Q, Z.eqb_refl. reflexivity.
  - rewrite andb_false_r. split.
    + intros NB. destruct (dbg && has_duplicates st a b (g_inter g)) eqn:D; [|reflexivity].
      exfalso. apply andb_true_iff in D. destruct D as [D1 D2]. destruct (proj1 DL D2) as (x & Hx & _ & H1 & H2).
      exact (NB D1 x Hx (conj H1 H2)).
    + intros NM. destruct (dbg && has_duplicates st a b (g_inter g)) eqn:D; [reflexivity|].
      exfalso. apply NM. intros -> x Hx [H1 H2]. cbn [andb] in D.
      assert (has_duplicates st a b (g_inter g) = true); [|congruence].
      apply DL. exists x. split; [exact Hx|]. split; [|auto].
      unfold leaving. rewrite H1, H2, Ea, Eb, Z.eqb_refl. cbn [andb].
      destruct (Z.eqb_spec (fst b) (fst a)); [congruence|reflexivity].
Qed.

End Create.

(** GetEdgeTo finds the first edge of the key. *)
Lemma find_sel {X} (l : list X) t u :
  find (fun i => match nth_error l i with Some c => u c | None => false end) (sel l t) =
  find (fun i => match nth_error l i with Some c => t c && u c | None => false end) (seq 0 (length l)).
Proof.
  unfold sel. generalize (seq 0 (length l)). intros q. induction q as [|i q IH]; [reflexivity|].
  cbn [filter find]. destruct (nth_error l i) as [c|] eqn:E.
  - destruct (t c); cbn [find andb]; [rewrite E; destruct (u c); [reflexivity|exact IH]|exact IH].
  - exact IH.
Qed.

Lemma Forall2_len {X Y} (R : X -> Y -> Prop) l m : Forall2 R l m -> length l = length m.
Proof. induction 1; cbn; congruence. Qed.

(** Position of the first element satisfying a test. *)
Definition findi {X} (t : X -> bool) (l : list X) : option nat :=
  find (fun i => match nth_error l i with Some c => t c | None => false end) (seq 0 (length l)).

Lemma find_map_S {X} (t : X -> bool) x l q :
  find (fun i => match nth_error (x :: l) i with Some c => t c | None => false end) (map S q) =
  option_map S (find (fun i => match nth_error l i with Some c => t c | None => false end) q).
Proof.
  induction q as [|i q IH]; [reflexivity|]. cbn [map find nth_error].
  destruct (match nth_error l i with Some c => t c | None => false end); [reflexivity|exact IH].
Qed.
Lemma findi_cons {X} (t : X -> bool) x l : findi t (x :: l) = if t x then Some 0%nat else option_map S (findi t l).
Proof.
  unfold findi. cbn [length seq find nth_error]. destruct (t x); [reflexivity|].
  rewrite <- seq_shift. apply find_map_S.
Qed.
Lemma find_ext_in {X} (t u : X -> bool) l : (forall x, In x l -> t x = u x) -> find t l = find u l.
Proof.
  induction l as [|x l IH]; intros H; [reflexivity|]. cbn [find]. rewrite (H x (or_introl eq_refl)).
  destruct (u x); [reflexivity|]. apply IH. intros y Hy. apply H. now right.
Qed.
Lemma find_app_none {X} (t : X -> bool) l m : find t (l ++ m) = match find t l with Some x => Some x | None => find t m end.
Proof. induction l as [|x l IH]; [reflexivity|]. cbn [app find]. destruct (t x); [reflexivity|exact IH]. Qed.
Lemma find_none_all {X} (t : X -> bool) l : (forall x, In x l -> t x = false) -> find t l = None.
Proof.
  induction l as [|x l IH]; intros H; [reflexivity|]. cbn [find]. rewrite (H x (or_introl eq_refl)).
  apply IH. intros y Hy. apply H. now right.
Qed.

Definition heavier (w : Z) (a : aedge) : aedge := AEdge (a_src a) (a_sink a) (a_weight a + w) (a_kind a) (a_isec a).

Lemma findi_bump s d k w A :
  match findi (has_key s d k) A with
  | Some i => exists x, nth_error A i = Some x /\ find (has_key s d k) A = Some x /\
                existsb (has_key s d k) A = true /\ bump s d k w A = upd A i (heavier w)
  | None => find (has_key s d k) A = None /\ existsb (has_key s d k) A = false
  end.
Proof.
  induction A as [|x A IH]; [cbn; auto|]. rewrite findi_cons. cbn [find existsb bump].
  destruct (has_key s d k x) eqn:E.
  - exists x. cbn. auto.
  - destruct (findi (has_key s d k) A) as [i|]; cbn [option_map].
    + destruct IH as (y & H1 & H2 & H3 & H4). exists y. cbn [nth_error orb upd]. rewrite H4. auto.
    + cbn [orb]. exact IH.
Qed.

Section Update.
Variables (P : list func) (clf : func -> list nat) (pathf : func -> list (list full_id)) (A : list aedge) (st : state).
Hypothesis V : Inv P clf pathf A st.

Lemma get_edge a b s d k n :
  rname P clf a s -> rname P clf b d -> node_at st a = Some n ->
  GetEdgeTo st n b k = findi (has_key s d k) A.
Proof.
  intros Ra Rb Hn. pose proof (v_nodup _ _ _ _ _ V) as N.
  unfold node_at in Hn. destruct (cfg_at st (fst a)) as [g|] eqn:Hg; [|discriminate].
  destruct (cfg_in _ _ _ _ _ V _ _ Hg) as (F & HF & EF & I).
  destruct (i_lists _ _ _ _ _ I _ _ Hn) as (L1 & _ & L3 & _).
  assert ((f_index F, snd a) = a) as Q by (destruct a; cbn in *; congruence). rewrite Q in L1, L3.
  unfold GetEdgeTo. rewrite L1, L3, find_app_none.
  set (u := fun c => kind_eqb (e_kind c) k && nref_eqb (e_sink c) b).
  change (fun e => match nth_error (s_edges st) e with Some d0 => kind_eqb (e_kind d0) k && nref_eqb (e_sink d0) b | None => false end)
    with (fun e => match nth_error (s_edges st) e with Some d0 => u d0 | None => false end).
  rewrite !find_sel.
  assert (LE : length (s_edges st) = length A) by exact (Forall2_len _ _ _ (v_edges _ _ _ _ _ V)).
  assert (KEY : forall i c, nth_error (s_edges st) i = Some c ->
     nref_eqb (e_src c) a && u c = match nth_error A i with Some x => has_key s d k x | None => false end).
  { intros i c Ec. destruct (Forall2_nth_l _ _ _ (v_edges _ _ _ _ _ V) _ _ Ec) as (x & Ex & R1 & R2 & _ & R4 & _).
    rewrite Ex. unfold has_key, u. rewrite (rname_eqb _ _ _ _ _ _ N R1 Ra), (rname_eqb _ _ _ _ _ _ N R2 Rb), R4, kind_eqb_same.
    destruct (name_eqb (a_src x) s), (name_eqb (a_sink x) d), (same_kind (a_kind x) k); reflexivity. }
  unfold findi. rewrite <- LE.
  destruct (Z.eqb_spec (fst b) (f_index F)) as [Eb|Eb].
  - rewrite (find_ext_in _ (fun i => match nth_error A i with Some x => has_key s d k x | None => false end)).
    + destruct (find _ _) as [i|]; [reflexivity|]. apply find_none_all. intros i _.
      destruct (nth_error (s_edges st) i) as [c|]; [|reflexivity]. unfold t_leaving, u.
      destruct (nref_eqb_spec (e_sink c) b) as [->|]; [|rewrite !andb_false_r; reflexivity].
      rewrite Eb, Z.eqb_refl. cbn [negb]. rewrite !andb_false_r. reflexivity.
    + intros i Hi. apply in_seq in Hi.
      destruct (nth_error (s_edges st) i) as [c|] eqn:Ec; [|apply nth_error_None in Ec; lia].
      rewrite <- (KEY i c Ec). unfold t_inside.
      destruct (nref_eqb_spec (e_src c) a) as [->|]; [|reflexivity]. cbn [andb].
      rewrite EF, Z.eqb_refl. cbn [andb]. unfold u.
      destruct (nref_eqb_spec (e_sink c) b) as [->|]; [|rewrite !andb_false_r; reflexivity].
      rewrite Eb, EF, Z.eqb_refl. reflexivity.
  - rewrite (find_none_all _ (seq 0 (length (s_edges st)))).
    + apply find_ext_in. intros i Hi. apply in_seq in Hi.
      destruct (nth_error (s_edges st) i) as [c|] eqn:Ec; [|apply nth_error_None in Ec; lia].
      rewrite <- (KEY i c Ec). unfold t_leaving.
      destruct (nref_eqb_spec (e_src c) a) as [->|]; [|reflexivity]. cbn [andb].
      rewrite EF, Z.eqb_refl. cbn [andb]. unfold u.
      destruct (nref_eqb_spec (e_sink c) b) as [->|]; [|rewrite !andb_false_r; reflexivity].
      rewrite <- EF. destruct (Z.eqb_spec (fst b) (f_index F)); [congruence|reflexivity].
    + intros i _. destruct (nth_error (s_edges st) i) as [c|]; [|reflexivity]. unfold t_inside, u.
      destruct (nref_eqb_spec (e_sink c) b) as [->|]; [|rewrite !andb_false_r; reflexivity].
      destruct (Z.eqb_spec (fst b) (f_index F)); [congruence|]. rewrite !andb_false_r. reflexivity.
Qed.

Lemma weigh_inv i x w w' :
  nth_error A i = Some x -> w' = a_weight x + w ->
  Inv P clf pathf (upd A i (heavier w))
    (State (s_cfgs st) (upd (s_edges st) i (fun d => CEdge (e_src d) (e_sink d) w' (e_kind d) (e_isec d)))).
Proof.
  intros Ex ->. set (h := fun d => CEdge (e_src d) (e_sink d) (a_weight x + w) (e_kind d) (e_isec d)).
  assert (SEL : forall t, (forall d, t (h d) = t d) -> sel (upd (s_edges st) i h) t = sel (s_edges st) t).
  { intros t Ht. apply sel_ext; [apply upd_length|]. intros j c c' H1 H2. rewrite nth_error_upd, H2 in H1.
    destruct (i =? j)%nat; cbn in H1; injection H1 as <-; [apply Ht|reflexivity]. }
  constructor.
  - exact (v_nodup _ _ _ _ _ V).
  - exact (v_keys _ _ _ _ _ V).
  - exact (v_cl _ _ _ _ _ V).
  - intros F HF. destruct (v_fns _ _ _ _ _ V F HF) as (g & Hg & I). exists g. split; [exact Hg|]. cbn [s_edges].
    destruct I as [i1 i2 i3 i4 i5 i6 i7 i8 i9 i10 i11 i12 i13].
    constructor; try assumption.
    + rewrite i11, SEL; reflexivity.
    + rewrite i12, SEL; reflexivity.
    + intros p n Hn. destruct (i13 p n Hn) as (j1 & j2 & j3 & j4). rewrite j1, j2, j3, j4.
      split; [|split; [|split]]; rewrite SEL; reflexivity.
  - cbn [s_edges].
    assert (G : forall l m, Forall2 (erel P clf) l m -> forall j, nth_error m j = Some x -> Forall2 (erel P clf) (upd l j h) (upd m j (heavier w))).
    { clear. intros l m FE. induction FE as [|c y l m R FE IH]; intros j Ej; [destruct j; discriminate|].
      destruct j as [|j]; cbn [upd].
      - cbn in Ej. injection Ej as ->. constructor; [|exact FE].
        destruct R as (R1 & R2 & R3 & R4 & R5). unfold erel, h, heavier. cbn. auto.
      - constructor; [exact R|]. apply IH. exact Ej. }
    exact (G _ _ (v_edges _ _ _ _ _ V) i Ex).
Qed.

Lemma update_spec dbg a b s d w k isec :
  rname P clf a s -> rname P clf b d ->
  let ok := match find (has_key s d k) A with
            | Some x => int_ok (a_weight x + w) | None => may_create dbg A s d isec end in
  (ok -> exists st', CreateOrUpdateEdge dbg (fst a) a b w k isec st = Ok st' /\
     Inv P clf pathf (if existsb (has_key s d k) A then bump s d k w A else A ++ [AEdge s d w k isec]) st') /\
  (~ ok -> forall st', CreateOrUpdateEdge dbg (fst a) a b w k isec st <> Ok st').
Proof.
  intros Ra Rb. destruct (node_at_rname _ _ _ _ _ V _ _ Ra) as (na & Ha & _).
  unfold CreateOrUpdateEdge. rewrite Ha, (get_edge a b s d k na Ra Rb Ha).
  pose proof (findi_bump s d k w A) as FB. destruct (findi (has_key s d k) A) as [i|].
  - destruct FB as (x & E1 & E2 & E3 & E4). rewrite E2, E3, E4. cbn zeta.
    destruct (Forall2_nth_r _ _ _ (v_edges _ _ _ _ _ V) _ _ E1) as (c & Ec & R). rewrite Ec.
    assert (e_weight c = a_weight x) as -> by apply R. unfold int_add, int_ok.
    split.
    + intros O1. replace ((-2147483648 <=? a_weight x + w) && (a_weight x + w <=? 2147483647)) with true by lia.
      cbn [obind]. eexists. split; [reflexivity|]. exact (weigh_inv i x w _ E1 eq_refl).
    + intros O1 st'. replace ((-2147483648 <=? a_weight x + w) && (a_weight x + w <=? 2147483647)) with false by lia.
      discriminate.
  - destruct FB as [E1 E2]. rewrite E1, E2. cbn zeta. destruct (create_spec _ _ _ _ _ V dbg a b s d w k isec Ra Rb) as [C1 C2].
    split.
    + intros M. rewrite (C1 M). eexists. split; [reflexivity|]. exact (create_inv _ _ _ _ _ V a b s d w k isec Ra Rb).
    + intros M st'. rewrite (C2 M). discriminate.
Qed.
End Update.
