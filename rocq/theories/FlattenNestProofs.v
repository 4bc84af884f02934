(** Flattening, proofs part 3: nodes below the limit, whose flattening only
    outlines trees that stay within the limit. *)
From Verif Require Import Base AssocFold SymbolModel SymbolSpec SymbolProofs AttribProofs AfdoModel
  AfdoReadProofs FlattenModel FlattenSpec FlattenPureProofs FlattenMapProofs.

(** *** Pieces of a node *)
Lemma upd_key done key c rest cur f : sym_ok cur -> s_calls cur = done ++ (key, c) :: rest ->
  s_calls (upd_at [key] f cur) = done ++ (key, f c) :: rest /\
  s_pos (upd_at [key] f cur) = s_pos cur /\ s_total (upd_at [key] f cur) = s_total cur /\
  s_head (upd_at [key] f cur) = s_head cur /\ node_at cur [key] = Some c.
Proof.
  intros O E. destruct O as [h t ts pos cs Hh Ht Hp Hn Hc]. cbn [s_calls] in E. subst cs.
  unfold akeys in Hn. rewrite map_app in Hn. cbn [map fst] in Hn.
  assert (A : aget callsite_eqb key (done ++ (key, c) :: rest) = Some c /\
    forall v, aset callsite_eqb key v (done ++ (key, c) :: rest) = done ++ (key, v) :: rest).
  { clear - Hn. induction done as [|[k0 c0] done IH]; cbn [app aget aset].
    - destruct (callsite_eqb_spec key key); [split; reflexivity|congruence].
    - cbn [map fst app] in Hn. inversion Hn; subst. destruct (callsite_eqb_spec key k0) as [->|Ne].
      + exfalso. apply H1. apply in_or_app. right. left. reflexivity.
      + destruct (IH H2) as [A B]. split; [exact A|]. intros v. rewrite B. reflexivity. }
  destruct A as [A B]. cbn [upd_at node_at s_calls]. rewrite A. cbn [s_calls s_pos s_total s_head]. rewrite B.
  split; [reflexivity|]. auto.
Qed.
Lemma low_children j s : (forall key c, In (key, c) (s_calls s) -> low j c) -> low (S j) s.
Proof.
  intros H [|key q] Hq; cbn [length] in Hq; [lia|]. cbn [node_at].
  destruct (aget callsite_eqb key (s_calls s)) as [c|] eqn:E; [|reflexivity].
  apply aget_In in E; [|apply callsite_eqb_spec]. apply (H _ _ E). lia.
Qed.
Lemma height_child s key c : In (key, c) (s_calls s) -> (height c < height s)%nat.
Proof.
  destruct s as [h t ts pos cs]. cbn [s_calls height]. induction cs as [|[k0 c0] cs IH]; intros I; [destruct I|].
  cbn [fold_right snd]. destruct I as [E|I]; [assert (c0 = c) as -> by congruence; lia|]. specialize (IH I). lia.
Qed.
Lemma height_pos s : (1 <= height s)%nat. Proof. destruct s; cbn [height]; lia. Qed.

Lemma pos_get_ok l pos : pos_ok pos -> pinfo_ok (pget l pos).
Proof.
  intros P. unfold pget. destruct (aget Z.eqb l pos) eqn:E; [|apply pinfo0_ok]. eapply pos_ok_get; eauto.
Qed.
Lemma flatten_pos_ok l g h pos : pos_ok pos -> is_u64 h -> pos_ok (flatten_pos l g h pos).
Proof.
  intros P Hh. unfold flatten_pos. pose proof (pos_get_ok l pos P) as (A & B & C). destruct P as [P1 P2].
  set (i := pget l pos) in *. pose proof (add64_range (tget g (p_targets i)) h) as T.
  split.
  - apply NoDup_akeys_aset; auto using Z.eqb_spec.
  - apply Forall_forall. intros [l' i'] I. apply In_aset_kv in I; [|apply Z.eqb_spec].
    destruct I as [[-> ->]|I]; [|rewrite Forall_forall in P2; apply (P2 _ I)].
    split; [|split]; cbn [p_count p_ninst p_targets snd].
    + unfold is_u64 in *. lia.
    + exact B.
    + destruct C as [C1 C2]. split; [apply NoDup_akeys_aset; auto using name_eqb_spec|].
      apply Forall_forall. intros [t v] I. apply In_aset_kv in I; [|apply name_eqb_spec].
      destruct I as [[-> ->]|I]; [exact T|]. rewrite Forall_forall in C2. apply (C2 _ I).
Qed.
Lemma flatten_into_ok l g h s : sym_ok s -> is_u64 h -> sym_ok (flatten_into l g h s).
Proof.
  intros [h0 t ts pos cs Hh Ht Hp Hn Hc] H. cbn [flatten_into]. constructor; auto using flatten_pos_ok, u64_range.
Qed.
Lemma sub_total_ok c s : sym_ok s -> sym_ok (sub_total c s).
Proof. intros []. constructor; auto using u64_range. Qed.
Lemma add_diff_ok c s : sym_ok s -> sym_ok (add_diff c s).
Proof. intros []. constructor; auto using u64_range. Qed.
Lemma clear_calls_ok s : sym_ok s -> sym_ok (clear_calls s).
Proof. intros []. constructor; auto; [constructor|intros ? ? []]. Qed.

(** EstimateHeadCount changes head counts only *)
Lemma estimate_ok s : sym_ok s -> sym_ok (EstimateHeadCount s).
Proof.
  induction s as [h t ts pos cs IH] using symbol_ind'. intros O. cbn [EstimateHeadCount].
  destruct (negb (h =? 0)); [exact O|]. inversion O as [? ? ? ? ? Hh Ht Hp Hn Hc]; subst.
  assert (P1 : forall l, is_u64 (p_count (pget l pos))) by (intros l; apply (pos_get_ok l pos Hp)).
  destruct (min_pos (akeys pos)) as [l|]; destruct (min_callsite (akeys cs)) as [e|]; try (constructor; auto; fail).
  all: destruct (_ <=? _); [constructor; auto|].
  all: set (cs' := map _ cs); assert (K : akeys cs' = akeys cs) by (unfold cs', akeys; rewrite map_map; reflexivity).
  all: assert (C : forall k c, In (k, c) cs' -> sym_ok c) by
    (intros k c I; apply in_map_iff in I; destruct I as ([k0 c0] & E & I); cbn [fst snd] in E;
     specialize (Hc _ _ I); specialize (IH _ _ I Hc); destruct (callsite_eqb k0 e);
     [assert (c = EstimateHeadCount c0) as -> by congruence; exact IH|assert (c = c0) as -> by congruence; exact Hc]).
  all: constructor; auto; [|rewrite K; exact Hn].
  all: unfold cget; destruct (aget callsite_eqb e cs') eqn:E; [|apply sym_ok_head, sym0_ok].
  all: apply aget_In in E; [|apply callsite_eqb_spec]; apply C in E; apply sym_ok_head; exact E.
Qed.
Definition est_calls (e : callsite) (cs : list (callsite * symbol)) : list (callsite * symbol) :=
  map (fun kc => (fst kc, if callsite_eqb (fst kc) e then EstimateHeadCount (snd kc) else snd kc)) cs.
Lemma estimate_shape s : s_pos (EstimateHeadCount s) = s_pos s /\
  (s_calls (EstimateHeadCount s) = s_calls s \/ exists e, s_calls (EstimateHeadCount s) = est_calls e (s_calls s)).
Proof.
  destruct s as [h t ts pos cs]. cbn [EstimateHeadCount]. destruct (negb (h =? 0)); [auto|].
  destruct (min_pos (akeys pos)) as [l|]; destruct (min_callsite (akeys cs)) as [e|]; auto.
  all: destruct (_ <=? _); [auto|]; split; [reflexivity|right; exists e; reflexivity].
Qed.
Lemma estimate_low s : forall j, low j s -> low j (EstimateHeadCount s).
Proof.
  induction s as [h t ts pos cs IH] using symbol_ind'. intros j L.
  destruct j as [|j]; [specialize (L [] (le_n 0)); discriminate|].
  destruct (estimate_shape (Sym h t ts pos cs)) as [_ [E|[e E]]].
  - intros [|key q] Hq; [cbn [length] in Hq; lia|]. specialize (L (key :: q) Hq). cbn [node_at] in *. rewrite E. exact L.
  - intros [|key q] Hq; [cbn [length] in Hq; lia|]. cbn [node_at]. rewrite E. unfold est_calls. cbn [s_calls].
    assert (A : aget callsite_eqb key (est_calls e cs) =
      match aget callsite_eqb key cs with Some c => Some (if callsite_eqb key e then EstimateHeadCount c else c) | None => None end).
    { clear. induction cs as [|[k0 c0] cs IH]; [reflexivity|]. cbn [est_calls map aget fst snd].
      destruct (callsite_eqb_spec key k0) as [->|]; [reflexivity|exact IH]. }
    unfold est_calls in A. rewrite A. destruct (aget callsite_eqb key cs) as [c|] eqn:Ec; [|reflexivity].
    assert (Lc : low j c) by (apply (low_child j (Sym h t ts pos cs) key); auto).
    cbn [length] in Hq. destruct (callsite_eqb key e); [|apply Lc; lia].
    apply aget_In in Ec; [|apply callsite_eqb_spec]. apply (IH _ _ Ec j Lc). lia.
Qed.
Lemma estimate_tsum obs F s : forall n, tree_sum obs F n (EstimateHeadCount s) = tree_sum obs F n s.
Proof.
  induction s as [h t ts pos cs IH] using symbol_ind'. intros n. rewrite !tsum_eq.
  destruct (estimate_shape (Sym h t ts pos cs)) as [-> [->|[e ->]]]; [reflexivity|]. f_equal. cbn [s_calls].
  clear - IH. induction cs as [|[k0 c0] cs IHc]; [reflexivity|]. cbn [est_calls map csum fold_right fst snd] in *.
  unfold csum, est_calls in IHc. rewrite IHc by (intros; apply (IH key); right; assumption). f_equal.
  destruct (callsite_eqb k0 e); [|reflexivity]. apply (IH k0). left; reflexivity.
Qed.
Lemma estimate_keys R s : forall n, all_keys R n s -> all_keys R n (EstimateHeadCount s).
Proof.
  induction s as [h t ts pos cs IH] using symbol_ind'. intros n A. apply all_keys_iff. rewrite all_keys_iff in A.
  destruct (estimate_shape (Sym h t ts pos cs)) as [_ [->|[e ->]]]; [exact A|]. cbn [s_calls] in *.
  intros key c I. apply in_map_iff in I. destruct I as ([k0 c0] & E & I). cbn [fst snd] in E.
  destruct (A _ _ I) as [A1 A2]. pose proof (IH _ _ I _ A2) as A3.
  destruct (callsite_eqb k0 e).
  - assert (key = k0 /\ c = EstimateHeadCount c0) as [-> ->] by (split; congruence). auto.
  - assert (key = k0 /\ c = c0) as [-> ->] by (split; congruence). auto.
Qed.

(** *** Outlining leaves deep nodes alone *)
Section Deep.
  Variable k : nat.
  Definition L_low (L : list (name * symbol)) : Prop := Forall (fun e => sym_ok (snd e) /\ low k (snd e)) L.

  Lemma outline1_get g c m i p x : smap_ok m -> sym_ok c -> low k c -> (k <= length p)%nat ->
    node_get m i p = Some x -> node_get (outline1 g c m) i p = Some x.
  Proof.
    intros O Oc Lc Lp N. unfold outline1. destruct (aget name_eqb g (sm_names m)) as [j|] eqn:E.
    - unfold node_get in *. rewrite nth_upd. destruct (Nat.eqb_spec i j) as [->|]; [|exact N].
      destruct (nth_error (sm_heap m) j) as [s|] eqn:Es; [|discriminate]. cbn [upd_at].
      rewrite node_at_merge by eauto using ok_nth. rewrite N, (Lc p Lp). reflexivity.
    - unfold node_get in *. cbn [sm_heap]. rewrite nth_error_app1; [exact N|].
      apply nth_error_Some. destruct (nth_error (sm_heap m) i); congruence.
  Qed.
  Lemma outline1_upd g c m i p f x : smap_ok m -> sym_ok c -> low k c -> (k <= length p)%nat ->
    node_get m i p = Some x -> outline1 g c (node_upd i p f m) = node_upd i p f (outline1 g c m).
  Proof.
    intros O Oc Lc Lp N. unfold outline1. rewrite names_upd, len_upd.
    destruct (node_upd_get i p f m x N) as (s & Es & Ns & U).
    destruct (aget name_eqb g (sm_names m)) as [j|] eqn:E.
    - destruct (Nat.eq_dec i j) as [->|Ne].
      + unfold node_upd. rewrite Es. cbn [sm_names sm_heap].
        assert (Lj : (j < length (sm_heap m))%nat) by (apply nth_error_Some; congruence).
        rewrite !nth_set_nth, Nat.eqb_refl by exact Lj. rewrite !set_nth_twice. cbn [upd_at]. f_equal. f_equal.
        apply (merge_upd_comm k p f s c x); eauto using ok_nth.
      + pose proof (ok_range m g j O E) as Lj.
        destruct (nth_error (sm_heap m) j) as [r|] eqn:Er; [|apply nth_error_None in Er; lia].
        assert (Li : (i < length (sm_heap m))%nat) by (apply nth_error_Some; congruence).
        unfold node_upd. rewrite Es, Er. cbn [sm_names sm_heap].
        rewrite !nth_set_nth by assumption. destruct (Nat.eqb_spec j i) as [|_]; [congruence|].
        destruct (Nat.eqb_spec i j) as [|_]; [congruence|]. rewrite Es, Er. f_equal.
        clear - Ne. revert i j Ne. induction (sm_heap m) as [|y l IH]; intros [|i] [|j] Ne; cbn [set_nth]; try reflexivity; [congruence|].
        rewrite IH by congruence. reflexivity.
    - rewrite U. unfold node_upd. cbn [sm_names sm_heap].
      assert (Li : (i < length (sm_heap m))%nat) by (apply nth_error_Some; congruence).
      rewrite nth_error_app1, Es by exact Li. f_equal.
      clear - Li. revert i Li. induction (sm_heap m) as [|y l IH]; intros i Li; cbn [length] in Li; [lia|].
      destruct i as [|i]; cbn [set_nth app]; [reflexivity|]. rewrite IH by lia. reflexivity.
  Qed.
  Lemma L_low_ok L : L_low L -> Forall (fun e => sym_ok (snd e)) L.
  Proof. apply Forall_impl. tauto. Qed.
  Lemma outline_get L : forall m i p x, smap_ok m -> L_low L -> (k <= length p)%nat ->
    node_get m i p = Some x -> node_get (outline L m) i p = Some x.
  Proof.
    induction L as [|[g c] L IH]; intros m i p x O H Lp N; cbn [outline]; [exact N|]. inversion H; subst. cbn [snd] in *.
    apply IH; auto; [apply outline1_ok; tauto|]. apply outline1_get; tauto.
  Qed.
  Lemma outline_upd L : forall m i p f x, smap_ok m -> L_low L -> (k <= length p)%nat -> sym_ok (f x) ->
    node_get m i p = Some x -> outline L (node_upd i p f m) = node_upd i p f (outline L m).
  Proof.
    induction L as [|[g c] L IH]; intros m i p f x O H Lp Of N; cbn [outline]; [reflexivity|]. inversion H; subst. cbn [snd] in *.
    rewrite (outline1_upd g c m i p f x) by tauto.
    apply (IH _ i p f x); auto; [apply outline1_ok; tauto|]. apply outline1_get; tauto.
  Qed.
End Deep.

Section Nest.
  Variable k : nat.
  Hypothesis kpos : (0 < k)%nat.
  Variables (obs : list (Z * pinfo) -> Z) (F : name).
  Variable R : name -> callsite -> Prop.
  Variable Nm : name -> Prop.
  Hypothesis quiet : forall key h pos, R F key -> obs (flatten_pos (fst key) (snd key) h pos) = obs pos.
  Hypothesis R_name : forall x key, R x key -> Nm (snd key).
  Notation tsum := (tree_sum obs F).
  Notation csm := (csum obs F).

  Definition L_ok (L : list (name * symbol)) : Prop :=
    Forall (fun e => sym_ok (snd e) /\ low k (snd e) /\ all_keys R (fst e) (snd e) /\ Nm (fst e)) L.
  Lemma L_ok_low L : L_ok L -> L_low k L. Proof. apply Forall_impl. tauto. Qed.
  Fixpoint Lsum (L : list (name * symbol)) : Z := match L with [] => 0 | e :: L' => tsum (fst e) (snd e) + Lsum L' end.
  Lemma Lsum_app a b : Lsum (a ++ b) = Lsum a + Lsum b.
  Proof. induction a as [|x a IH]; cbn [app Lsum]; [reflexivity|]. rewrite IH. ring. Qed.

  Lemma tsum_sub_total n c s : tsum n (sub_total c s) = tsum n s. Proof. destruct s; reflexivity. Qed.
  Lemma tsum_add_diff n c s : tsum n (add_diff c s) = tsum n s. Proof. destruct s; reflexivity. Qed.
  Lemma tsum_clear n s : tsum n s = tsum n (clear_calls s) + csm (s_calls s).
  Proof. destruct s as [h t ts pos cs]. rewrite !tsum_eq. cbn [clear_calls s_pos s_calls]. unfold csum at 2. cbn [fold_right]. ring. Qed.
  Lemma tsum_flatten_into n key h s : R n key -> tsum n (flatten_into (fst key) (snd key) h s) = tsum n s.
  Proof.
    destruct s as [h0 t ts pos cs]. cbn [flatten_into]. intros Q. rewrite !tsum_eq. cbn [s_pos s_calls].
    destruct (name_eqb_spec n F) as [->|]; [rewrite quiet by exact Q; reflexivity|reflexivity].
  Qed.
  Lemma calls_sub_total c s : s_calls (sub_total c s) = s_calls s. Proof. destruct s; reflexivity. Qed.
  Lemma calls_add_diff c s : s_calls (add_diff c s) = s_calls s. Proof. destruct s; reflexivity. Qed.
  Lemma calls_flatten_into l g h s : s_calls (flatten_into l g h s) = s_calls s. Proof. destruct s; reflexivity. Qed.
  Lemma all_keys_calls n s s' : s_calls s' = s_calls s -> all_keys R n s -> all_keys R n s'.
  Proof. intros E A. apply all_keys_iff. rewrite all_keys_iff in A. rewrite E. exact A. Qed.
  Lemma csm_mid done key c rest : csm (done ++ (key, c) :: rest) = csm done + (tsum (snd key) c + csm rest).
  Proof. rewrite csum_app. reflexivity. Qed.
  Lemma clear_upd_key n done key c rest cur f : sym_ok cur -> s_calls cur = done ++ (key, c) :: rest ->
    tsum n (clear_calls (upd_at [key] f cur)) = tsum n (clear_calls cur).
  Proof.
    intros O E. destruct (upd_key done key c rest cur f O E) as (_ & P & _). rewrite !tsum_eq.
    destruct cur as [h t ts pos cs], (upd_at [key] f (Sym h t ts pos cs)) as [h' t' ts' pos' cs'].
    cbn [clear_calls s_pos s_calls] in *. rewrite P. reflexivity.
  Qed.
  Lemma all_keys_upd_key n done key c rest cur f : sym_ok cur -> s_calls cur = done ++ (key, c) :: rest ->
    all_keys R n cur -> all_keys R (snd key) (f c) -> all_keys R n (upd_at [key] f cur).
  Proof.
    intros O E A B. destruct (upd_key done key c rest cur f O E) as (C & _). apply all_keys_iff. rewrite all_keys_iff in A.
    rewrite C. rewrite E in A. intros k0 c0 I. apply in_app_or in I. destruct I as [I|[X|I]].
    - apply A. apply in_or_app. left; exact I.
    - assert (key = k0 /\ f c = c0) as [<- <-] by (split; congruence). split; [|exact B].
      apply (A key c). apply in_or_app. right; left; reflexivity.
    - apply A. apply in_or_app. right; right; exact I.
  Qed.
  Lemma sym_ok_upd_key done key c rest cur f : sym_ok cur -> s_calls cur = done ++ (key, c) :: rest ->
    sym_ok (f c) -> sym_ok (upd_at [key] f cur).
  Proof.
    intros O E Oc. destruct (upd_key done key c rest cur f O E) as (_ & _ & _ & _ & N). apply (sym_ok_upd [key] f cur c); auto.
  Qed.

  Definition res (n : name) (s : symbol) (depth : nat) (s' : symbol) (L : list (name * symbol)) : Prop :=
    sym_ok s' /\ low (S k - depth) s' /\ all_keys R n s' /\ L_ok L /\ eqm (tsum n s' + Lsum L) (tsum n s).

  Section Cfg.
    Variables (m : smap) (i : nat) (p : path) (s : symbol).
    Hypothesis (Wm : smap_ok m) (N : node_get m i p = Some s) (Lp : (k <= length p)%nat).
    Definition cfg (cur : symbol) (L : list (name * symbol)) : smap := node_put i p cur (outline L m).
    Lemma cfg_get cur L q : L_ok L -> node_get (cfg cur L) i (p ++ q) = node_at cur q.
    Proof.
      intros H. unfold cfg. apply (get_upd_under i p (fun _ => cur) (outline L m) s).
      apply (outline_get k); auto. apply L_ok_low; exact H.
    Qed.
    Lemma cfg_get0 cur L : L_ok L -> node_get (cfg cur L) i p = Some cur.
    Proof. intros H. pose proof (cfg_get cur L [] H) as X. rewrite app_nil_r in X. exact X. Qed.
    Lemma cfg_upd cur L q f : node_upd i (p ++ q) f (cfg cur L) = cfg (upd_at q f cur) L.
    Proof. unfold cfg. apply upd_upd_map. Qed.
    Lemma cfg_upd0 cur L f : node_upd i p f (cfg cur L) = cfg (f cur) L.
    Proof. pose proof (cfg_upd cur L [] f) as X. rewrite app_nil_r in X. exact X. Qed.
    Lemma cfg_ok cur L : L_ok L -> sym_ok cur -> smap_ok (cfg cur L).
    Proof.
      intros H O. unfold cfg. apply (ok_upd _ i p _ s); auto.
      - apply outline_ok; auto. apply (L_low_ok k). apply L_ok_low; exact H.
      - apply (outline_get k); auto. apply L_ok_low; exact H.
    Qed.
    Lemma cfg_outline cur L L' : L_ok L -> L_ok L' -> sym_ok cur -> outline L' (cfg cur L) = cfg cur (L ++ L').
    Proof.
      intros H H' O. unfold cfg. rewrite outline_app. apply (outline_upd k L' _ i p _ s); auto.
      - apply outline_ok; auto. apply (L_low_ok k). apply L_ok_low; exact H.
      - apply L_ok_low; exact H'.
      - apply (outline_get k); auto. apply L_ok_low; exact H.
    Qed.
    Lemma cfg_start : m = cfg s [].
    Proof.
      unfold cfg. cbn [outline]. destruct (node_upd_get i p (fun _ => s) m s N) as (r & E & Nr & ->).
      assert (U : upd_at p (fun _ => s) r = r).
      { clear - Nr. revert r Nr. induction p as [|key p' IH]; intros r Nr; cbn [upd_at node_at] in *; [congruence|].
        destruct r as [h t ts pos cs]. cbn [s_calls] in Nr. destruct (aget callsite_eqb key cs) as [c|] eqn:E; [|reflexivity].
        rewrite IH by exact Nr. rewrite aset_same by (auto using callsite_eqb_spec). reflexivity. }
      rewrite U, set_nth_same by exact E. destruct m; reflexivity.
    Qed.

    (** the recursive call *)
    Variable rec : nat -> nat -> path -> smap -> outcome (Z * smap).
    Variable fuel : nat.
    Hypothesis IH : forall depth i p m s n, smap_ok m -> node_get m i p = Some s -> (k <= length p)%nat ->
      (1 <= depth <= k)%nat -> (height s <= fuel)%nat -> all_keys R n s ->
      exists s' L, rec depth i p m = Ok (u64 (s_total s' - s_total s), node_put i p s' (outline L m)) /\ res n s depth s' L.

    Lemma cfg_rec depth key c done rest cur L : L_ok L -> sym_ok cur ->
      s_calls cur = done ++ (key, c) :: rest -> (1 <= depth <= k)%nat -> (height c <= fuel)%nat -> all_keys R (snd key) c ->
      exists c' Lc, rec depth i (p ++ [key]) (cfg cur L) =
          Ok (u64 (s_total c' - s_total c), cfg (upd_at [key] (fun _ => c') cur) (L ++ Lc)) /\
        res (snd key) c depth c' Lc.
    Proof.
      intros HL O E D Hc A. destruct (upd_key done key c rest cur (fun x => x) O E) as (_ & _ & _ & _ & Nc).
      destruct (IH depth i (p ++ [key]) (cfg cur L) c (snd key)) as (c' & Lc & E1 & Rs); auto.
      - apply cfg_ok; auto.
      - rewrite cfg_get by exact HL. exact Nc.
      - rewrite app_length. lia.
      - exists c', Lc. split; [|exact Rs]. rewrite E1. destruct Rs as (O' & _ & _ & HLc & _).
        rewrite cfg_outline by auto. rewrite cfg_upd. reflexivity.
    Qed.

    Lemma flatten_nested n : forall rest done cur L, L_ok L -> sym_ok cur -> s_calls cur = done ++ rest ->
      (forall key c, In (key, c) rest -> (height c <= fuel)%nat) -> all_keys R n cur ->
      exists cur' L' rest', flatten_loop rec i p (akeys rest) (cfg cur L) = Ok (cfg cur' (L ++ L')) /\
        s_calls cur' = done ++ rest' /\ sym_ok cur' /\ all_keys R n cur' /\ L_ok L' /\
        eqm (tsum n (clear_calls cur') + Lsum L') (tsum n (clear_calls cur) + csm rest).
    Proof.
      induction rest as [|[key c] rest IHr]; intros done cur L HL O E Hh A.
      { exists cur, [], []. cbn [akeys map flatten_loop]. rewrite app_nil_r. split; [reflexivity|].
        split; [exact E|]. split; [exact O|]. split; [exact A|]. split; [constructor|]. exists 0. unfold csum. cbn [Lsum fold_right]. ring. }
      assert (Ak : R n key /\ all_keys R (snd key) c).
      { rewrite all_keys_iff in A. apply A. rewrite E. apply in_or_app. right. left. reflexivity. }
      destruct Ak as [Rk Ac].
      set (cur1 := sub_total (s_total c) cur).
      assert (O1 : sym_ok cur1) by (apply sub_total_ok; exact O).
      assert (E1 : s_calls cur1 = done ++ (key, c) :: rest) by (unfold cur1; rewrite calls_sub_total; exact E).
      destruct (cfg_rec 1 key c done rest cur1 L HL O1 E1 ltac:(lia) (Hh key c (or_introl eq_refl)) Ac) as (c' & Lc & Er & Rs).
      destruct Rs as (Oc' & Lc' & Ac' & HLc & Sc).
      set (c2 := EstimateHeadCount c'). assert (O2 : sym_ok c2) by (apply estimate_ok; exact Oc').
      set (cur2 := upd_at [key] (fun _ => c') cur1).
      assert (O20 : sym_ok cur2) by (apply (sym_ok_upd_key done key c rest); auto).
      destruct (upd_key done key c rest cur1 (fun _ => c') O1 E1) as (E2 & P2 & _). fold cur2 in E2, P2.
      set (cur3 := upd_at [key] EstimateHeadCount cur2).
      assert (O3 : sym_ok cur3) by (apply (sym_ok_upd_key done key c' rest); auto).
      destruct (upd_key done key c' rest cur2 EstimateHeadCount O20 E2) as (E3 & P3 & _). fold cur3 in E3, P3. fold c2 in E3.
      destruct (upd_key done key c2 rest cur3 (fun x => x) O3 E3) as (_ & _ & _ & _ & N3).
      set (cur4 := flatten_into (fst key) (snd key) (s_head c2) cur3).
      assert (O4 : sym_ok cur4) by (apply flatten_into_ok; [exact O3|apply sym_ok_head; exact O2]).
      assert (E4 : s_calls cur4 = (done ++ [(key, c2)]) ++ rest).
      { unfold cur4. rewrite calls_flatten_into, E3, <- app_assoc. reflexivity. }
      assert (A2 : all_keys R n cur2).
      { apply (all_keys_upd_key n done key c rest); auto. apply (all_keys_calls n cur); [apply calls_sub_total|exact A]. }
      assert (A4 : all_keys R n cur4).
      { apply (all_keys_calls n cur3); [apply calls_flatten_into|].
        apply (all_keys_upd_key n done key c' rest); auto. apply estimate_keys; exact Ac'. }
      assert (Lk : L_ok [(snd key, c2)]).
      { constructor; [|constructor]. cbn [fst snd]. split; [exact O2|]. split.
        - apply estimate_low. replace k with (S k - 1)%nat by lia. exact Lc'.
        - split; [apply estimate_keys; exact Ac'|]. apply (R_name n). exact Rk. }
      assert (HL2 : L_ok (L ++ Lc)) by (apply Forall_app; auto).
      assert (HL4 : L_ok ((L ++ Lc) ++ [(snd key, c2)])) by (apply Forall_app; auto).
      destruct (IHr (done ++ [(key, c2)]) cur4 _ HL4 O4 E4) as (cur' & L' & rest' & Ef & Ec & O' & A' & HL' & Sm).
      { intros k0 c0 I0. apply (Hh k0). right. exact I0. }
      { exact A4. }
      exists cur', (Lc ++ [(snd key, c2)] ++ L'), ((key, c2) :: rest').
      split.
      { cbn [akeys map fst flatten_loop]. unfold flatten_one at 1.
        rewrite (cfg_get cur L [key] HL). destruct (upd_key done key c rest cur (fun x => x) O E) as (_ & _ & _ & _ & ->).
        rewrite cfg_upd0. fold cur1. rewrite Er. cbn [obind]. fold cur2. rewrite cfg_upd. fold cur3.
        rewrite (cfg_get cur3 (L ++ Lc) [key] HL2), N3. rewrite cfg_upd0. fold cur4.
        rewrite outline1_code by (apply cfg_ok; auto). cbn [obind].
        change (outline1 (snd key) c2 (cfg cur4 (L ++ Lc))) with (outline [(snd key, c2)] (cfg cur4 (L ++ Lc))).
        rewrite cfg_outline by auto. unfold akeys in Ef. rewrite Ef. rewrite <- !app_assoc. reflexivity. }
      split; [rewrite Ec, <- app_assoc; reflexivity|]. split; [exact O'|]. split; [exact A'|].
      split; [apply Forall_app; split; [exact HLc|]; apply Forall_app; split; [exact Lk|exact HL']|].
      assert (T4 : tsum n (clear_calls cur4) = tsum n (clear_calls cur)).
      { assert (T : tsum n cur4 = tsum n cur3) by (apply tsum_flatten_into; exact Rk).
        rewrite (tsum_clear n cur4), (tsum_clear n cur3), E3 in T. unfold cur4 in T at 2. rewrite calls_flatten_into, E3 in T.
        assert (T3 : tsum n (clear_calls cur3) = tsum n (clear_calls cur1)).
        { unfold cur3. rewrite (clear_upd_key n done key c' rest) by auto. unfold cur2. apply (clear_upd_key n done key c rest); auto. }
        assert (T1 : tsum n (clear_calls cur1) = tsum n (clear_calls cur)) by (unfold cur1; destruct cur; reflexivity).
        revert T T3 T1. generalize (csm (done ++ (key, c2) :: rest)). intros z T T3 T1. lia. }
      rewrite T4 in Sm. rewrite !Lsum_app. cbn [Lsum fst snd].
      change (csm ((key, c) :: rest)) with (tsum (snd key) c + csm rest).
      assert (Tc : tsum (snd key) c2 = tsum (snd key) c') by apply estimate_tsum. rewrite Tc.
      destruct Sm as [z Ez], Sc as [y Ey]. exists (z + y).
      apply (f_equal (fun a => a - Lsum L')) in Ez. apply (f_equal (fun a => a - Lsum Lc)) in Ey.
      revert Ez Ey. generalize (tsum n (clear_calls cur')) (tsum n (clear_calls cur)) (csm rest) (tsum (snd key) c) (tsum (snd key) c') (Lsum L') (Lsum Lc).
      intros. lia.
    Qed.

    Lemma descend_nested n depth : (1 <= depth < k)%nat -> forall rest done cur L, L_ok L -> sym_ok cur -> s_calls cur = done ++ rest ->
      (forall key c, In (key, c) rest -> (height c <= fuel)%nat) -> all_keys R n cur ->
      exists cur' L' rest', descend_loop rec depth i p (akeys rest) (cfg cur L) = Ok (cfg cur' (L ++ L')) /\
        s_calls cur' = done ++ rest' /\ (forall key c, In (key, c) rest' -> low (k - depth) c) /\
        sym_ok cur' /\ all_keys R n cur' /\ L_ok L' /\ eqm (tsum n cur' + Lsum L') (tsum n cur).
    Proof.
      intros D. induction rest as [|[key c] rest IHr]; intros done cur L HL O E Hh A.
      { exists cur, [], []. cbn [akeys map descend_loop]. rewrite app_nil_r. split; [reflexivity|].
        split; [exact E|]. split; [intros ? ? []|]. split; [exact O|]. split; [exact A|]. split; [constructor|]. exists 0. cbn [Lsum]. ring. }
      assert (Ak : R n key /\ all_keys R (snd key) c).
      { rewrite all_keys_iff in A. apply A. rewrite E. apply in_or_app. right. left. reflexivity. }
      destruct Ak as [Rk Ac].
      destruct (cfg_rec (S depth) key c done rest cur L HL O E ltac:(lia) (Hh key c (or_introl eq_refl)) Ac) as (c' & Lc & Er & Rs).
      destruct Rs as (Oc' & Lc' & Ac' & HLc & Sc).
      set (cur2 := upd_at [key] (fun _ => c') cur) in *.
      assert (O20 : sym_ok cur2) by (apply (sym_ok_upd_key done key c rest); auto).
      destruct (upd_key done key c rest cur (fun _ => c') O E) as (E2 & P2 & _). fold cur2 in E2, P2.
      set (d := u64 (s_total c' - s_total c)) in *. set (cur3 := add_diff d cur2).
      assert (O3 : sym_ok cur3) by (apply add_diff_ok; exact O20).
      assert (E3 : s_calls cur3 = (done ++ [(key, c')]) ++ rest) by (unfold cur3; rewrite calls_add_diff, E2, <- app_assoc; reflexivity).
      assert (A2 : all_keys R n cur2) by (apply (all_keys_upd_key n done key c rest); auto).
      assert (HL2 : L_ok (L ++ Lc)) by (apply Forall_app; auto).
      destruct (IHr (done ++ [(key, c')]) cur3 _ HL2 O3 E3) as (cur' & L' & rest' & Ef & Ec & Lo & O' & A' & HL' & Sm).
      { intros k0 c0 I0. apply (Hh k0). right. exact I0. }
      { apply (all_keys_calls n cur2); [apply calls_add_diff|exact A2]. }
      exists cur', (Lc ++ L'), ((key, c') :: rest').
      split.
      { cbn [akeys map fst descend_loop]. rewrite Er. cbn [obind]. rewrite cfg_upd0. fold cur3.
        unfold akeys in Ef. rewrite Ef, <- app_assoc. reflexivity. }
      split; [rewrite Ec, <- app_assoc; reflexivity|].
      split; [intros k0 c0 [X|I0]; [assert (c' = c0) as <- by congruence; replace (k - depth)%nat with (S k - S depth)%nat by lia; exact Lc'|eapply Lo; exact I0]|].
      split; [exact O'|]. split; [exact A'|]. split; [apply Forall_app; auto|].
      unfold cur3 in Sm. rewrite tsum_add_diff in Sm. unfold cur2 in Sm.
      destruct (upd_key done key c rest cur (fun x => x) O E) as (_ & _ & _ & _ & Nc).
      rewrite (tsum_upd obs F [key] n (fun _ => c') cur c Nc) in Sm. change (name_of n [key]) with (snd key) in Sm.
      rewrite Lsum_app. destruct Sm as [z Ez], Sc as [y Ey]. exists (z + y).
      revert Ez Ey. generalize (tsum n cur') (tsum n cur) (tsum (snd key) c) (tsum (snd key) c') (Lsum L') (Lsum Lc).
      intros. lia.
    Qed.
  End Cfg.

  Theorem nested : forall fuel depth i p m s n, smap_ok m -> node_get m i p = Some s -> (k <= length p)%nat ->
    (1 <= depth <= k)%nat -> (height s <= fuel)%nat -> all_keys R n s ->
    exists s' L, FlattenImpl k fuel depth i p m = Ok (u64 (s_total s' - s_total s), node_put i p s' (outline L m)) /\ res n s depth s' L.
  Proof.
    induction fuel as [|fuel IH]; intros depth i p m s n W N Lp D Hh A.
    { pose proof (height_pos s). lia. }
    assert (Os : sym_ok s) by (eapply ok_get; eauto).
    assert (Hc : forall key c, In (key, c) (s_calls s) -> (height c <= fuel)%nat).
    { intros key c I0. apply height_child in I0. lia. }
    cbn [FlattenImpl]. rewrite N. destruct (Nat.eqb_spec depth k) as [->|Ne].
    - destruct (flatten_nested m i p s W N Lp (FlattenImpl k fuel) fuel IH n (s_calls s) [] s [] (Forall_nil _) Os eq_refl Hc A)
        as (cur' & L' & rest' & Ef & Ec & O' & A' & HL' & Sm).
      rewrite <- (cfg_start m i p s W N) in Ef. rewrite Ef. cbn [obind]. rewrite cfg_upd0. cbn [app].
      rewrite (cfg_get0 m i p s W N Lp) by exact HL'.
      exists (clear_calls cur'), L'. split; [reflexivity|].
      split; [apply clear_calls_ok; exact O'|]. split.
      { replace (S k - k)%nat with 1%nat by lia. apply low_1. destruct cur'; reflexivity. }
      split; [apply all_keys_iff; destruct cur'; intros ? ? []|]. split; [exact HL'|].
      rewrite (tsum_clear n s). exact Sm.
    - destruct (descend_nested m i p s W N Lp (FlattenImpl k fuel) fuel IH n depth ltac:(lia) (s_calls s) [] s [] (Forall_nil _) Os eq_refl Hc A)
        as (cur' & L' & rest' & Ef & Ec & Lo & O' & A' & HL' & Sm).
      rewrite <- (cfg_start m i p s W N) in Ef. rewrite Ef. cbn [obind app].
      rewrite (cfg_get0 m i p s W N Lp) by exact HL'.
      exists cur', L'. split; [reflexivity|].
      split; [exact O'|]. split.
      { replace (S k - depth)%nat with (S (k - depth)) by lia. apply low_children. rewrite Ec. exact Lo. }
      split; [exact A'|]. split; [exact HL'|]. exact Sm.
  Qed.
End Nest.
