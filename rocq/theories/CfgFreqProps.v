(** C37 (block frequency) and C44 (hot-block frequency threshold). *)
From Verif Require Import Base ISort CfgFreqModel.

(* ---------------- C37 ---------------- *)

(** Specification vocabulary: sums and maxima of edge weights. *)
Definition wsum (es : list wedge) : Z := fold_right (fun e a => we_weight e + a) 0 es.
Definition wmax (es : list wedge) : Z := fold_right (fun e a => Z.max (we_weight e) a) 0 es.
Definition not_b {A} (f : A -> bool) (x : A) : bool := negb (f x).

Lemma wsum_app a b : wsum (a ++ b) = wsum a + wsum b.
Proof. induction a as [|e a IH]; cbn; [reflexivity|]. unfold wsum in *. rewrite IH. lia. Qed.
Lemma wsum_filter_split f es : wsum es = wsum (filter f es) + wsum (filter (not_b f) es).
Proof.
  induction es as [|e es IH]; [reflexivity|]. cbn [filter]. unfold not_b at 1. destruct (f e); cbn [negb];
  unfold wsum in *; cbn [fold_right]; rewrite IH; lia.
Qed.
Lemma wmax_nonneg es : 0 <= wmax es.
Proof. induction es; cbn; [lia|]. unfold wmax in *. lia. Qed.
Lemma wmax_ge es e : In e es -> we_weight e <= wmax es.
Proof.
  induction es as [|x es IH]; intros H; [destruct H|]. cbn. destruct H as [->|H].
  - lia.
  - specialize (IH H). unfold wmax in *. lia.
Qed.
Lemma wsum_nonneg es : Forall (fun e => 0 <= we_weight e) es -> 0 <= wsum es.
Proof. induction 1; cbn; [lia|]. unfold wsum in *. lia. Qed.
Lemma wsum_ge es e : Forall (fun e => 0 <= we_weight e) es -> In e es -> we_weight e <= wsum es.
Proof.
  induction 1 as [|x es Hx Hes IH]; intros H; [destruct H|]. cbn. pose proof (wsum_nonneg es Hes).
  destruct H as [->|H]; [unfold wsum in *; lia|]. specialize (IH H). unfold wsum in *. lia.
Qed.
Lemma wmax_le_wsum es : Forall (fun e => 0 <= we_weight e) es -> wmax es <= wsum es.
Proof.
  induction 1 as [|x es Hx Hes IH]; cbn; [lia|]. pose proof (wsum_nonneg es Hes).
  unfold wsum, wmax in *. lia.
Qed.
Lemma Forall_filter {A} (P : A -> Prop) f l : Forall P l -> Forall P (filter f l).
Proof. induction 1; cbn; [constructor|]. destruct (f x); [constructor|]; assumption. Qed.

Lemma freq_loop_ok heavy es : forall mx sum,
  Forall (fun e => 0 <= we_weight e) es -> 0 <= sum ->
  sum + wsum (filter (not_b heavy) es) <= 2147483647 ->
  freq_loop heavy mx sum es =
  Ok (Z.max mx (wmax (filter heavy es)) - 0 , sum + wsum (filter (not_b heavy) es))
  \/ mx < 0.
Proof.
  induction es as [|e es IH]; intros mx sum Hf H0 Hs.
  - cbn. destruct (Z.ltb_spec mx 0); [right; lia|left]. f_equal. f_equal; lia.
  - inversion Hf as [|? ? He Hes]; subst. destruct (Z.ltb_spec mx 0); [right; lia|left].
    cbn [freq_loop filter]. unfold not_b. destruct (heavy e) eqn:Eh; cbn [negb].
    + cbn [filter] in Hs. unfold not_b in Hs. rewrite Eh in Hs. cbn [negb] in Hs.
      destruct (IH (Z.max mx (we_weight e)) sum Hes H0 Hs) as [->|]; [|lia].
      unfold not_b. cbn [wmax fold_right]. unfold wmax. f_equal. f_equal. lia.
    + cbn [filter] in Hs. unfold not_b in Hs. rewrite Eh in Hs. cbn [negb wsum fold_right] in Hs.
      pose proof (wsum_nonneg _ (Forall_filter _ (fun x => negb (heavy x)) es Hes)) as Hn.
      unfold wsum in Hn.
      unfold int_add. replace (-2147483648 <=? sum + we_weight e) with true by lia.
      replace (sum + we_weight e <=? 2147483647) with true by lia. cbn [andb obind].
      assert (sum + we_weight e + wsum (filter (not_b heavy) es) <= 2147483647) as Hs' by (unfold wsum, not_b; lia).
      destruct (IH mx (sum + we_weight e) Hes ltac:(lia) Hs') as [->|]; [|lia].
      unfold not_b. cbn [wsum fold_right]. unfold wsum. f_equal. f_equal. lia.
Qed.

(** C37.  For every block whose edges have non-negative weights with in- and
    out-totals in int range, the frequency is the maximum of: the heaviest call
    out, the heaviest return in, the sum of the other out-edges, the sum of the
    other in-edges. *)
Theorem C37_frequency_value : forall inter_outs intra_outs inter_ins intra_ins,
  let outs := inter_outs ++ intra_outs in
  let ins := inter_ins ++ intra_ins in
  Forall (fun e => 0 <= we_weight e) (outs ++ ins) ->
  wsum outs <= 2147483647 -> wsum ins <= 2147483647 ->
  CalculateFrequency inter_outs intra_outs inter_ins intra_ins =
  Ok (Z.max (Z.max (wmax (filter is_call outs)) (wsum (filter (fun e => negb (is_call e)) outs)))
            (Z.max (wmax (filter is_ret ins)) (wsum (filter (fun e => negb (is_ret e)) ins)))).
Proof.
  intros io no ii ni outs ins Hf Ho Hi. apply Forall_app in Hf. destruct Hf as [Hfo Hfi].
  unfold CalculateFrequency. fold outs ins.
  rewrite (wsum_filter_split is_call) in Ho. rewrite (wsum_filter_split is_ret) in Hi.
  pose proof (wsum_nonneg _ (Forall_filter _ is_call _ Hfo)).
  pose proof (wsum_nonneg _ (Forall_filter _ is_ret _ Hfi)).
  destruct (freq_loop_ok is_call outs 0 0 Hfo) as [->|]; [lia|lia| |lia]. cbn [obind].
  destruct (freq_loop_ok is_ret ins 0 0 Hfi) as [->|]; [lia|lia| |lia]. cbn [obind].
  f_equal. pose proof (wmax_nonneg (filter is_call outs)). pose proof (wmax_nonneg (filter is_ret ins)).
  unfold not_b. lia.
Qed.

(** The English property: non-negative, at least each incident edge, at most
    the total of all incident edges. *)
Theorem C37_frequency_bounds : forall inter_outs intra_outs inter_ins intra_ins,
  let outs := inter_outs ++ intra_outs in
  let ins := inter_ins ++ intra_ins in
  Forall (fun e => 0 <= we_weight e) (outs ++ ins) ->
  wsum outs <= 2147483647 -> wsum ins <= 2147483647 ->
  exists f, CalculateFrequency inter_outs intra_outs inter_ins intra_ins = Ok f /\
    0 <= f /\ (forall e, In e (outs ++ ins) -> we_weight e <= f) /\ f <= wsum (outs ++ ins).
Proof.
  intros io no ii ni outs ins Hf Ho Hi.
  rewrite (C37_frequency_value io no ii ni Hf Ho Hi). fold outs ins.
  eexists. split; [reflexivity|].
  apply Forall_app in Hf. destruct Hf as [Hfo Hfi].
  pose proof (wmax_nonneg (filter is_call outs)) as M1. pose proof (wmax_nonneg (filter is_ret ins)) as M2.
  split; [lia|]. split.
  - intros e He. apply in_app_iff in He. destruct He as [He|He].
    + destruct (is_call e) eqn:E.
      * pose proof (wmax_ge (filter is_call outs) e ltac:(apply filter_In; auto)). lia.
      * assert (In e (filter (fun e => negb (is_call e)) outs)) as Hi' by (apply filter_In; rewrite E; auto).
        pose proof (wsum_ge _ e (Forall_filter _ _ _ Hfo) Hi'). lia.
    + destruct (is_ret e) eqn:E.
      * pose proof (wmax_ge (filter is_ret ins) e ltac:(apply filter_In; auto)). lia.
      * assert (In e (filter (fun e => negb (is_ret e)) ins)) as Hi' by (apply filter_In; rewrite E; auto).
        pose proof (wsum_ge _ e (Forall_filter _ _ _ Hfi) Hi'). lia.
  - rewrite wsum_app, (wsum_filter_split is_call outs), (wsum_filter_split is_ret ins). unfold not_b.
    pose proof (wsum_nonneg _ (Forall_filter _ is_call _ Hfo)).
    pose proof (wsum_nonneg _ (Forall_filter _ is_ret _ Hfi)).
    pose proof (wsum_nonneg _ (Forall_filter _ (fun e => negb (is_call e)) _ Hfo)).
    pose proof (wsum_nonneg _ (Forall_filter _ (fun e => negb (is_ret e)) _ Hfi)).
    pose proof (wmax_le_wsum _ (Forall_filter _ is_call _ Hfo)).
    pose proof (wmax_le_wsum _ (Forall_filter _ is_ret _ Hfi)). lia.
Qed.

Lemma wsum_perm l l' : Permutation l l' -> wsum l = wsum l'.
Proof. induction 1; cbn; unfold wsum in *; lia. Qed.
Lemma wmax_perm l l' : Permutation l l' -> wmax l = wmax l'.
Proof. induction 1; cbn; unfold wmax in *; lia. Qed.
Lemma filter_perm {A} (f : A -> bool) l l' : Permutation l l' -> Permutation (filter f l) (filter f l').
Proof.
  induction 1; cbn; try (destruct (f x)); try (destruct (f y)); auto using perm_swap, perm_skip.
  eapply perm_trans; eassumption.
Qed.

(** The frequency does not depend on the order in which the edges were created,
    nor on which of them are recorded as intra- or inter-function. *)
Theorem C37_frequency_order_independent :
  forall inter_outs intra_outs inter_ins intra_ins inter_outs' intra_outs' inter_ins' intra_ins',
  Permutation (inter_outs ++ intra_outs) (inter_outs' ++ intra_outs') ->
  Permutation (inter_ins ++ intra_ins) (inter_ins' ++ intra_ins') ->
  Forall (fun e => 0 <= we_weight e) ((inter_outs ++ intra_outs) ++ inter_ins ++ intra_ins) ->
  wsum (inter_outs ++ intra_outs) <= 2147483647 -> wsum (inter_ins ++ intra_ins) <= 2147483647 ->
  CalculateFrequency inter_outs intra_outs inter_ins intra_ins =
  CalculateFrequency inter_outs' intra_outs' inter_ins' intra_ins'.
Proof.
  intros io no ii ni io' no' ii' ni' Po Pi Hf Ho Hi.
  rewrite (C37_frequency_value _ _ _ _ Hf Ho Hi).
  rewrite C37_frequency_value.
  - rewrite !(wmax_perm _ _ (filter_perm _ _ _ Po)), !(wsum_perm _ _ (filter_perm _ _ _ Po)),
      !(wmax_perm _ _ (filter_perm _ _ _ Pi)), !(wsum_perm _ _ (filter_perm _ _ _ Pi)). reflexivity.
  - eapply Permutation_Forall; [|exact Hf]. apply Permutation_app; assumption.
  - rewrite <- (wsum_perm _ _ Po). exact Ho.
  - rewrite <- (wsum_perm _ _ Pi). exact Hi.
Qed.

(** A block is cold (frequency 0) exactly when all its edges have weight 0. *)
Corollary C37_cold_iff : forall inter_outs intra_outs inter_ins intra_ins,
  let all := (inter_outs ++ intra_outs) ++ inter_ins ++ intra_ins in
  Forall (fun e => 0 <= we_weight e) all ->
  wsum (inter_outs ++ intra_outs) <= 2147483647 -> wsum (inter_ins ++ intra_ins) <= 2147483647 ->
  (CalculateFrequency inter_outs intra_outs inter_ins intra_ins = Ok 0 <->
   forall e, In e all -> we_weight e = 0).
Proof.
  intros io no ii ni all Hf Ho Hi.
  destruct (C37_frequency_bounds io no ii ni Hf Ho Hi) as (f & E & H0 & Hge & Hle).
  fold all in Hge, Hle. rewrite E. split.
  - intros H e He. injection H as ->. specialize (Hge e He). rewrite Forall_forall in Hf.
    specialize (Hf e He). cbn in Hf. lia.
  - intros H. f_equal. assert (wsum all = 0) as Hz.
    { clear -H. induction all as [|e l IH]; [reflexivity|]. cbn.
      rewrite (H e) by (left; reflexivity). apply IH. intros; apply H; right; assumption. }
    lia.
Qed.

Example C37_nonvacuous :
  CalculateFrequency [WEdge 10 KCall; WEdge 4 KCall] [WEdge 3 KBranchOrFallthrough; WEdge 6 KBranchOrFallthrough]
                     [WEdge 8 KRet] [WEdge 2 KBranchOrFallthrough] = Ok 10
  /\ Forall (fun e => 0 <= we_weight e)
       (([WEdge 10 KCall; WEdge 4 KCall] ++ [WEdge 3 KBranchOrFallthrough; WEdge 6 KBranchOrFallthrough]) ++
        [WEdge 8 KRet] ++ [WEdge 2 KBranchOrFallthrough]).
Proof. split; [reflexivity|]. repeat (constructor; [cbn; lia|]). constructor. Qed.

(* ---------------- C44 ---------------- *)

(** Specification: how many of the hot blocks satisfy a test. *)
Definition count_if {A} (f : A -> bool) (l : list A) : Z := zlen (filter f l).
(** All non-zero block frequencies of the program. *)
Definition hot_freqs (cfgs : list (Z * list Z)) : list Z :=
  filter (fun f => negb (f =? 0)) (flat_map snd cfgs).

Lemma hot_of_function_freqs fi i fs :
  map (fun x => fst (fst x)) (hot_of_function fi i fs) = filter (fun f => negb (f =? 0)) fs.
Proof.
  revert i; induction fs as [|f fs IH]; intros i; [reflexivity|]. cbn [hot_of_function filter].
  rewrite map_app, IH. destruct (f =? 0); reflexivity.
Qed.
Lemma hot_nodes_freqs cfgs : map (fun x => fst (fst x)) (hot_nodes cfgs) = hot_freqs cfgs.
Proof.
  unfold hot_nodes, hot_freqs. induction cfgs as [|[fi fs] l IH]; [reflexivity|].
  cbn [flat_map snd]. rewrite map_app, filter_app, hot_of_function_freqs. f_equal. exact IH.
Qed.

Lemma count_if_perm {A} (f : A -> bool) l l' : Permutation l l' -> count_if f l = count_if f l'.
Proof. intros H. unfold count_if, zlen. rewrite (Permutation_length (filter_perm f l l' H)). reflexivity. Qed.
Lemma count_if_app {A} (f : A -> bool) l l' : count_if f (l ++ l') = count_if f l + count_if f l'.
Proof. unfold count_if. rewrite filter_app, zlen_app. reflexivity. Qed.
Lemma count_if_le {A} (f : A -> bool) l : count_if f l <= zlen l.
Proof.
  unfold count_if. induction l as [|x l IH]; [reflexivity|]. cbn [filter].
  destruct (f x); rewrite ?zlen_cons; lia.
Qed.
Lemma count_if_all {A} (f : A -> bool) l : (forall x, In x l -> f x = true) -> count_if f l = zlen l.
Proof.
  intros H. unfold count_if. f_equal. induction l as [|x l IH]; [reflexivity|]. cbn.
  rewrite H by (left; reflexivity). f_equal. apply IH. intros; apply H; right; assumption.
Qed.
Lemma count_if_none {A} (f : A -> bool) l : (forall x, In x l -> f x = false) -> count_if f l = 0.
Proof.
  intros H. unfold count_if. replace (filter f l) with (@nil A); [reflexivity|].
  induction l as [|x l IH]; [reflexivity|]. cbn. rewrite H by (left; reflexivity).
  apply IH. intros; apply H; right; assumption.
Qed.
Lemma count_if_map {A B} (g : A -> B) (f : B -> bool) l : count_if f (map g l) = count_if (fun x => f (g x)) l.
Proof.
  unfold count_if. induction l as [|x l IH]; [reflexivity|]. cbn. destruct (f (g x)); [|exact IH].
  rewrite !zlen_cons. lia.
Qed.

Lemma nth_error_split3 {A} (l : list A) k x : nth_error l k = Some x ->
  l = firstn k l ++ x :: skipn (S k) l /\ length (firstn k l) = k.
Proof.
  revert k; induction l as [|y l IH]; intros [|k] H; cbn in H; try discriminate.
  - injection H as ->. split; reflexivity.
  - destruct (IH k H) as [E1 E2]. split.
    + cbn [firstn app]. f_equal. exact E1.
    + cbn. f_equal. exact E2.
Qed.

Lemma cutoff_index_value n p : 0 <= n < 2147483648 -> 0 <= p <= 100 -> cutoff_index n p = n * p / 100 - 1.
Proof.
  intros Hn Hp. unfold cutoff_index.
  assert (0 <= n * p <= n * 100) by nia.
  unfold u64, u32.
  assert (0 <= n * p / 100 <= n).
  { split; [apply Z.div_pos; lia|]. apply Z.div_le_upper_bound; lia. }
  rewrite (Z.mod_small (n * p)) by (unfold w64; lia).
  destruct (Z.eq_dec (n * p / 100) 0) as [->|Hne].
  - reflexivity.
  - rewrite (Z.mod_small (n * p / 100 - 1)) by (unfold w64; lia).
    rewrite Z.mod_small by (unfold w32; lia). destruct (Z.ltb_spec (n * p / 100 - 1) 2147483648); lia.
Qed.

(** C44.  Let n be the number of blocks with a non-zero frequency and
    c = floor(n * p / 100).  Whatever order the hash maps are traversed in and
    whatever nth_element does within its contract, the threshold for percentile
    p is 0 if c = 0 and otherwise the frequency of a hot block such that at
    least c hot blocks have a frequency not above it and fewer than c have a
    frequency strictly below it. *)
Theorem C44_threshold_is_percentile : forall cfgs p r,
  0 <= p <= 100 -> zlen (hot_freqs cfgs) < 2147483648 ->
  GetNodeFrequencyThreshold cfgs p r ->
  let c := zlen (hot_freqs cfgs) * p / 100 in
  exists t, r = Ok t /\
    (c = 0 -> t = 0) /\
    (0 < c -> In t (hot_freqs cfgs) /\
              c <= count_if (fun f => f <=? t) (hot_freqs cfgs) /\
              count_if (fun f => f <? t) (hot_freqs cfgs) < c).
Proof.
  intros cfgs p r Hp Hn H c.
  assert (El : zlen (hot_nodes cfgs) = zlen (hot_freqs cfgs)).
  { rewrite <- hot_nodes_freqs. unfold zlen. rewrite map_length. reflexivity. }
  pose proof (zlen_nonneg (hot_freqs cfgs)) as H0.
  assert (Hc0 : 0 <= c) by (unfold c; apply Z.div_pos; lia).
  pose proof (cutoff_index_value (zlen (hot_freqs cfgs)) p ltac:(lia) Hp) as Ec. fold c in Ec.
  inversion H as [Hbad|_ He|_ Hne Hlt|l' x _ Hne Hge Hnth Hx]; subst r.
  - contradiction.
  - exists 0. split; [reflexivity|]. split; [reflexivity|]. intros Hc. exfalso.
    rewrite He in El. unfold c in Hc. rewrite <- El in Hc. cbn in Hc. lia.
  - exists 0. split; [reflexivity|]. split; [reflexivity|]. rewrite El, Ec in Hlt. intros. lia.
  - rewrite El, Ec in *. exists (fst (fst x)). split; [reflexivity|]. split; [lia|]. intros Hc.
    destruct Hnth as [Hperm Hord]. destruct (Hord x Hx) as [Hbef Haft].
    destruct (nth_error_split3 _ _ _ Hx) as [Esp Elen].
    set (k := Z.to_nat (c - 1)) in *. set (B := firstn k l') in *. set (D := skipn (S k) l') in *.
    assert (EB : zlen B = c - 1) by (unfold zlen; rewrite Elen; unfold k; lia).
    rewrite <- hot_nodes_freqs. split; [|split].
    + apply in_map_iff. exists x. split; [reflexivity|].
      eapply Permutation_in; [apply Permutation_sym; exact Hperm|]. rewrite Esp. apply in_app_iff. right; left; reflexivity.
    + rewrite count_if_map, (count_if_perm _ _ _ Hperm), Esp, count_if_app.
      change (x :: D) with ([x] ++ D). rewrite count_if_app.
      rewrite (count_if_all _ B).
      * rewrite (count_if_all _ [x]).
        -- pose proof (zlen_nonneg (filter (fun y => fst (fst y) <=? fst (fst x)) D)). unfold count_if.
           change (zlen [x]) with 1. lia.
        -- intros y [<-|[]]. lia.
      * intros y Hy. specialize (Hbef y Hy). destruct x as [[fx ix] nx], y as [[fy iy] ny]. cbn in *.
        destruct (Z.ltb_spec fx fy); cbn in Hbef; lia.
    + rewrite count_if_map, (count_if_perm _ _ _ Hperm), Esp, count_if_app.
      change (x :: D) with ([x] ++ D). rewrite count_if_app.
      pose proof (count_if_le (fun y => fst (fst y) <? fst (fst x)) B).
      rewrite (count_if_none _ [x]), (count_if_none _ D); [lia| |].
      * intros y Hy. specialize (Haft y Hy). destruct x as [[fx ix] nx], y as [[fy iy] ny]. cbn in *.
        destruct (Z.ltb_spec fy fx); [cbn in Haft; discriminate|reflexivity].
      * intros y [<-|[]]. lia.
Qed.

(** The value is determined by the multiset of block frequencies alone: two
    programs (or two traversal orders) with the same hot block frequencies get
    the same threshold. *)
Theorem C44_threshold_unique : forall cfgs cfgs' p r r',
  0 <= p <= 100 -> zlen (hot_freqs cfgs) < 2147483648 ->
  Permutation (hot_freqs cfgs) (hot_freqs cfgs') ->
  GetNodeFrequencyThreshold cfgs p r -> GetNodeFrequencyThreshold cfgs' p r' -> r = r'.
Proof.
  intros cfgs cfgs' p r r' Hp Hn Hperm H H'.
  assert (El : zlen (hot_freqs cfgs') = zlen (hot_freqs cfgs)).
  { unfold zlen. rewrite (Permutation_length Hperm). reflexivity. }
  destruct (C44_threshold_is_percentile cfgs p r Hp Hn H) as (t & -> & Hz & Hb).
  destruct (C44_threshold_is_percentile cfgs' p r' Hp ltac:(lia) H') as (t' & -> & Hz' & Hb').
  rewrite El in *. f_equal.
  assert (Hc0 : 0 <= zlen (hot_freqs cfgs) * p / 100).
  { apply Z.div_pos; [|lia]. pose proof (zlen_nonneg (hot_freqs cfgs)). lia. }
  set (c := zlen (hot_freqs cfgs) * p / 100) in *.
  destruct (Z.eq_dec c 0) as [E|E]; [rewrite Hz, Hz' by exact E; reflexivity|].
  destruct (Hb ltac:(lia)) as (_ & A1 & A2). destruct (Hb' ltac:(lia)) as (_ & B1 & B2).
  rewrite <- (count_if_perm _ _ _ Hperm) in B1. rewrite <- (count_if_perm _ _ _ Hperm) in B2.
  assert (mono : forall a b, a < b -> count_if (fun f => f <=? a) (hot_freqs cfgs) <= count_if (fun f => f <? b) (hot_freqs cfgs)).
  { clear. intros a b Hab. unfold count_if, zlen. induction (hot_freqs cfgs) as [|f l IH]; [reflexivity|]. cbn [filter].
    destruct (f <=? a) eqn:E1; destruct (f <? b) eqn:E2; cbn [length]; lia. }
  destruct (Z.lt_trichotomy t t') as [Hlt|[->|Hlt]]; [|reflexivity|].
  - pose proof (mono t t' Hlt). lia.
  - pose proof (mono t' t Hlt). lia.
Qed.

(** The computation always delivers some result (nth_element can meet its
    contract), so the theorems above are about something. *)
Definition nf_leb (a b : node_freq) : bool := negb (nf_ltb b a).
Theorem C44_threshold_total : forall cfgs p,
  0 <= p <= 100 -> zlen (hot_freqs cfgs) < 2147483648 ->
  exists t, GetNodeFrequencyThreshold cfgs p (Ok t).
Proof.
  intros cfgs p Hp Hn.
  assert (El : zlen (hot_nodes cfgs) = zlen (hot_freqs cfgs)).
  { rewrite <- hot_nodes_freqs. unfold zlen. rewrite map_length. reflexivity. }
  destruct (hot_nodes cfgs) as [|h hs] eqn:Eh.
  { exists 0. apply threshold_empty; assumption. }
  pose proof (cutoff_index_value (zlen (hot_nodes cfgs)) p ltac:(rewrite Eh, El; pose proof (zlen_nonneg (hot_freqs cfgs)); lia) Hp) as Ec.
  destruct (Z.ltb_spec (cutoff_index (zlen (hot_nodes cfgs)) p) 0) as [Hlt|Hge].
  { exists 0. apply threshold_low; [exact Hp|rewrite Eh; discriminate|exact Hlt]. }
  set (k := Z.to_nat (cutoff_index (zlen (hot_nodes cfgs)) p)).
  set (l' := isort nf_leb (hot_nodes cfgs)).
  assert (Hs : StronglySorted (le_prop nf_leb) l').
  { apply isort_sorted.
    - intros [[a b] c] [[a' b'] c']. unfold nf_leb, nf_ltb.
      destruct (Z.ltb_spec a' a), (Z.ltb_spec a a'), (Z.eqb_spec a' a), (Z.eqb_spec a a'),
        (Z.ltb_spec b' b), (Z.ltb_spec b b'), (Z.eqb_spec b' b), (Z.eqb_spec b b'),
        (Z.ltb_spec c' c), (Z.ltb_spec c c'); cbn; try tauto; lia.
    - intros [[a b] c] [[a' b'] c'] [[a2 b2] c2]. unfold nf_leb, nf_ltb. rewrite !negb_true_iff.
      rewrite !orb_false_iff, !andb_false_iff, !orb_false_iff, !andb_false_iff. lia. }
  assert (Hk : (k < length l')%nat).
  { unfold l'. rewrite isort_length. unfold k. rewrite Ec.
    assert (zlen (hot_nodes cfgs) * p / 100 <= zlen (hot_nodes cfgs)).
    { apply Z.div_le_upper_bound; [lia|]. pose proof (zlen_nonneg (hot_nodes cfgs)). nia. }
    rewrite Ec in Hge. unfold zlen in *. lia. }
  destruct (nth_error l' k) as [x|] eqn:Ex.
  2:{ apply nth_error_None in Ex. lia. }
  exists (fst (fst x)). apply threshold_nth with (l' := l').
  - exact Hp.
  - rewrite Eh; discriminate.
  - exact Hge.
  - split; [apply isort_perm|]. fold k. intros y Hy. rewrite Ex in Hy. injection Hy as <-.
    destruct (nth_error_split3 _ _ _ Ex) as [Esp _].
    assert (G : forall (A D : list node_freq) z, StronglySorted (le_prop nf_leb) (A ++ z :: D) ->
      (forall y, In y A -> nf_ltb z y = false) /\ (forall y, In y D -> nf_ltb y z = false)).
    { induction A as [|a A IH]; intros D z Hz; cbn [app] in Hz; inversion Hz as [|? ? Hz1 Hz2]; subst.
      - split; [intros ? []|]. intros y Hy. rewrite Forall_forall in Hz2. specialize (Hz2 y Hy).
        unfold le_prop, nf_leb in Hz2. rewrite negb_true_iff in Hz2. exact Hz2.
      - destruct (IH D z Hz1) as [I1 I2]. split; [|exact I2]. intros y [<-|Hy]; [|auto].
        rewrite Forall_forall in Hz2. specialize (Hz2 z ltac:(apply in_app_iff; right; left; reflexivity)).
        unfold le_prop, nf_leb in Hz2. rewrite negb_true_iff in Hz2. exact Hz2. }
    rewrite Esp in Hs. exact (G _ _ _ Hs).
  - exact Ex.
Qed.

(** A percentile outside [0,100] aborts. *)
Theorem C44_threshold_bad_percentile : forall cfgs p r,
  ~ (0 <= p <= 100) -> GetNodeFrequencyThreshold cfgs p r -> r = Abort.
Proof. intros cfgs p r Hp H. inversion H; congruence || contradiction. Qed.

Example C44_nonvacuous :
  let cfgs := [(7, [10; 0; 30]); (3, [20; 0; 0; 40])] in
  GetNodeFrequencyThreshold cfgs 50 (Ok 20) /\ hot_freqs cfgs = [10; 30; 20; 40].
Proof.
  split; [|reflexivity].
  apply (threshold_nth _ _ [(10, 7, 0); (20, 3, 0); (30, 7, 2); (40, 3, 3)] (20, 3, 0)); [lia|discriminate|vm_compute; discriminate| |reflexivity].
  split.
  - cbn. apply perm_skip. apply perm_swap.
  - intros x Hx. vm_compute in Hx. injection Hx as <-. vm_compute. intuition (subst; reflexivity).
Qed.

Print Assumptions C37_frequency_value.
Print Assumptions C37_frequency_bounds.
Print Assumptions C37_frequency_order_independent.
Print Assumptions C37_cold_iff.
Print Assumptions C44_threshold_is_percentile.
Print Assumptions C44_threshold_unique.
Print Assumptions C44_threshold_total.
Print Assumptions C44_threshold_bad_percentile.
