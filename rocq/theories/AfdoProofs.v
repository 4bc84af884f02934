(** Lemmas about the AutoFDO writer: table, lengths, values. *)
From Verif Require Import Base GcovModel GcovSpec GcovProofs SrcOffsetModel SymbolModel SymbolProofs
  AfdoModel.
From Coq Require Import Sorted.

Lemma name_ltb_irrefl a : name_ltb a a = false.
Proof. induction a; cbn [name_ltb]; auto. rewrite IHa. lia. Qed.
Lemma name_ltb_trans a : forall b c, name_ltb a b = true -> name_ltb b c = true -> name_ltb a c = true.
Proof.
  induction a as [|x a IH]; intros [|y b] [|z c]; cbn [name_ltb]; try discriminate; auto.
  intros H G. apply orb_true_iff in H, G. apply orb_true_iff.
  rewrite !andb_true_iff in *. destruct H as [H|[H H']], G as [G|[G G']]; try (left; lia).
  right. split; [lia|]. eapply IH; eauto.
Qed.
Lemma name_ltb_total a : forall b, name_ltb a b = false -> name_ltb b a = false -> a = b.
Proof.
  induction a as [|x a IH]; intros [|y b]; cbn [name_ltb]; try discriminate; auto.
  intros H G. rewrite orb_false_iff, andb_false_iff in *. destruct H as [H H'], G as [G G'].
  assert (x = y) by lia. subst. f_equal. apply IH.
  - destruct H'; [lia|auto].
  - destruct G'; [lia|auto].
Qed.

Definition nlt (a b : name) : Prop := name_ltb a b = true.

Lemma In_sinsert n l m : In m (sinsert n l) <-> m = n \/ In m l.
Proof.
  induction l as [|x l IH]; cbn [sinsert In]; [intuition|].
  destruct (name_ltb n x) eqn:A; [cbn [In]; intuition|].
  destruct (name_ltb x n) eqn:B; cbn [In]; [rewrite IH; tauto|].
  assert (n = x) by (apply name_ltb_total; auto). subst. intuition.
Qed.
Lemma sinsert_sorted n l : StronglySorted nlt l -> StronglySorted nlt (sinsert n l).
Proof.
  induction 1 as [|x l Hs IH F]; cbn [sinsert]; [repeat constructor|].
  destruct (name_ltb n x) eqn:A.
  - constructor; [constructor; auto|]. constructor; [exact A|].
    eapply Forall_impl; [|exact F]. intros y H. eapply name_ltb_trans; eauto.
  - destruct (name_ltb x n) eqn:B; [|constructor; auto].
    constructor; auto. rewrite Forall_forall in *. intros y Hy. apply In_sinsert in Hy.
    destruct Hy as [->|Hy]; auto.
Qed.
Lemma sorted_NoDup l : StronglySorted nlt l -> NoDup l.
Proof.
  induction 1 as [|x l Hs IH F]; constructor; auto. intros I. rewrite Forall_forall in F.
  specialize (F _ I). unfold nlt in F. rewrite name_ltb_irrefl in F. discriminate.
Qed.

Lemma table_fold ns : forall t, StronglySorted nlt t ->
  StronglySorted nlt (fold_left (fun t n => sinsert n t) ns t) /\
  forall m, In m (fold_left (fun t n => sinsert n t) ns t) <-> In m t \/ In m ns.
Proof.
  induction ns as [|n ns IH]; intros t Ht; cbn [fold_left]; [split; auto; intros; cbn; tauto|].
  destruct (IH (sinsert n t) (sinsert_sorted n t Ht)) as [A B]. split; auto.
  intros m. rewrite B, In_sinsert. cbn [In]. intuition.
Qed.

(** names mentioned by the events *)
Definition ev_names (e : event) : list name :=
  match e with
  | ETop n _ => [n]
  | ECall (_, n) => [n]
  | ENode s => flat_map (fun '(_, i) => map fst (p_targets i)) (s_pos s)
  end.
Definition ev_function_names (e : event) : list name :=
  match e with ETop n _ => [n] | ECall (_, n) => [n] | ENode _ => [] end.

Lemma all_names_ok evs : (forall e n, In e evs -> In n (ev_function_names e) -> n <> []) ->
  all_names evs = Ok (flat_map ev_names evs).
Proof.
  induction evs as [|e evs IH]; intros H; cbn [all_names flat_map]; auto.
  assert (E : event_names e = Ok (ev_names e)).
  { destruct e as [n s|s|[l n]]; cbn [event_names ev_names]; auto.
    - assert (n <> []) by (apply (H (ETop n s)); cbn; auto). destruct n; [congruence|reflexivity].
    - assert (n <> []) by (apply (H (ECall (l, n))); cbn; auto). destruct n; [congruence|reflexivity]. }
  rewrite E. cbn [obind]. rewrite IH; [reflexivity|]. intros; eapply H; eauto. right; auto.
Qed.
Lemma all_names_Ok_inv evs ns : all_names evs = Ok ns ->
  ns = flat_map ev_names evs /\ (forall e n, In e evs -> In n (ev_function_names e) -> n <> []).
Proof.
  revert ns. induction evs as [|e evs IH]; intros ns H; cbn [all_names flat_map] in *.
  - inversion H; subst. split; [reflexivity|]. intros ? ? [].
  - destruct (event_names e) as [a| |] eqn:A; cbn [obind] in H; try discriminate.
    destruct (all_names evs) as [b| |] eqn:B; cbn [obind] in H; try discriminate.
    inversion H; subst. destruct (IH b eq_refl) as [-> G].
    assert (E : a = ev_names e /\ forall n, In n (ev_function_names e) -> n <> []).
    { destruct e as [n s|s|[l n]]; cbn [event_names ev_names ev_function_names] in *.
      - destruct n; cbn in A; inversion A; subst. split; auto. intros ? [<-|[]]. discriminate.
      - inversion A; subst. split; [reflexivity|]. intros ? [].
      - destruct n; cbn in A; inversion A; subst. split; auto. intros ? [<-|[]]. discriminate. }
    destruct E as [-> E]. split; auto. intros e' n [<-|I]; eauto.
Qed.

Lemma string_table_spec evs t : string_table evs = Ok t ->
  StronglySorted nlt t /\ (forall n, In n t <-> n = [] \/ In n (flat_map ev_names evs)) /\
  (forall e n, In e evs -> In n (ev_function_names e) -> n <> []) /\
  hd_error t = Some [].
Proof.
  unfold string_table. destruct (all_names evs) as [ns| |] eqn:E; cbn [obind]; try discriminate.
  intros H. inversion H; subst. apply all_names_Ok_inv in E. destruct E as [-> G].
  destruct (table_fold (flat_map ev_names evs) [[]]) as [A B]; [repeat constructor|].
  set (t := fold_left (fun t n => sinsert n t) (flat_map ev_names evs) [[]]) in *.
  split; auto. split; [|split; auto].
  - intros n. rewrite B. cbn [In]. intuition.
  - destruct t as [|x t].
    + exfalso. apply (B []). cbn; auto.
    + cbn. f_equal. assert (I : In [] (x :: t)) by (apply B; cbn; auto).
      destruct I as [->|I]; auto. inversion A; subst. rewrite Forall_forall in H3.
      specialize (H3 _ I). unfold nlt in H3. destruct x; cbn in H3; discriminate.
Qed.

Lemma index_from_spec n t : forall i,
  match index_from i n t with
  | Some j => i <= j < i + zlen t /\ nth_error t (Z.to_nat (j - i)) = Some n
  | None => ~ In n t
  end.
Proof.
  induction t as [|m t IH]; intros i; cbn [index_from In]; [tauto|].
  destruct (name_eqb_spec n m) as [->|D].
  - rewrite zlen_cons. pose proof (zlen_nonneg t). replace (i - i) with 0 by lia. split; [lia|reflexivity].
  - specialize (IH (i + 1)). destruct (index_from (i + 1) n t) as [j|].
    + destruct IH as [A B]. rewrite zlen_cons. split; [lia|].
      replace (Z.to_nat (j - i)) with (S (Z.to_nat (j - (i + 1)))) by lia. exact B.
    + intuition.
Qed.
Lemma GetStringIndex_spec t n :
  match GetStringIndex t n with
  | Some i => 0 <= i < zlen t /\ nth_error t (Z.to_nat i) = Some n
  | None => ~ In n t
  end.
Proof.
  unfold GetStringIndex. pose proof (index_from_spec n t 0) as H.
  destruct (index_from 0 n t) as [j|]; auto. rewrite Z.sub_0_r in H. destruct H; split; auto; lia.
Qed.

(** ** The values as a total function of an index assignment *)
Definition ix (t : list name) (n : name) : Z :=
  match GetStringIndex t n with Some i => i | None => 0 end.
Definition tvals (t : list name) (ts : list (name * Z)) : list gval :=
  flat_map (fun '(n, c) => [VWord HIST_TYPE_INDIR_CALL_TOPN; VCounter (ix t n); VCounter c]) ts.
Definition pvals (t : list name) (ps : list (Z * pinfo)) : list gval :=
  flat_map (fun '(l, i) => VWord (GenerateCompressedOffset l) :: VWord (zlen (p_targets i))
              :: VCounter (p_count i) :: tvals t (p_targets i)) ps.
Definition evals (version : Z) (t : list name) (e : event) : list gval :=
  match e with
  | ETop n s => VCounter (s_head s) :: (if 3 <=? version then [VCounter (s_ts s)] else []) ++ [VWord (ix t n)]
  | ECall (l, n) => [VWord (GenerateCompressedOffset l); VWord (ix t n)]
  | ENode s => VWord (zlen (s_pos s)) :: VWord (zlen (s_calls s)) :: pvals t (s_pos s)
  end.

Lemma index_checked_ok t n : In n t -> index_checked t n = Ok (ix t n).
Proof.
  unfold index_checked, ix. pose proof (GetStringIndex_spec t n) as H.
  destruct (GetStringIndex t n); auto. tauto.
Qed.
Lemma index_checked_inv t n i : index_checked t n = Ok i -> i = ix t n.
Proof. unfold index_checked, ix. destruct (GetStringIndex t n); congruence. Qed.
Lemma nonzero_index_ok t n : n <> [] -> In n t -> hd_error t = Some [] ->
  nonzero_index t n = Ok (ix t n) /\ 0 < ix t n.
Proof.
  intros N I Hd. unfold nonzero_index.
  assert (checked_name n = Ok n) as -> by (destruct n; [congruence|reflexivity]). cbn [obind].
  rewrite index_checked_ok by auto. cbn [obind].
  assert (0 < ix t n).
  { unfold ix. pose proof (GetStringIndex_spec t n) as H. destruct (GetStringIndex t n) as [i|]; [|tauto].
    destruct H as [H1 H2]. assert (i <> 0); [|lia]. intros ->. cbn in H2.
    destruct t; cbn in *; congruence. }
  destruct (ix t n =? 0) eqn:E; [lia|]. auto.
Qed.
Lemma nonzero_index_inv t n i : nonzero_index t n = Ok i -> i = ix t n.
Proof.
  unfold nonzero_index. destruct n; cbn [checked_name obind]; [discriminate|].
  destruct (index_checked t _) as [j| |] eqn:E; cbn [obind]; try discriminate.
  apply index_checked_inv in E. destruct (j =? 0); [discriminate|]. congruence.
Qed.

Lemma target_vals_inv t ts r : target_vals t ts = Ok r -> r = tvals t ts.
Proof.
  revert r. induction ts as [|[n c] ts IH]; intros r; cbn [target_vals tvals flat_map]; [congruence|].
  destruct (index_checked t n) as [i| |] eqn:E; cbn [obind]; try discriminate.
  destruct (target_vals t ts) as [x| |]; cbn [obind]; try discriminate.
  apply index_checked_inv in E. intros H; inversion H; subst. unfold tvals in IH. rewrite <- (IH x eq_refl).
  reflexivity.
Qed.
Lemma pos_vals_inv t ps r : pos_vals t ps = Ok r -> r = pvals t ps.
Proof.
  revert r. induction ps as [|[l i] ps IH]; intros r; cbn [pos_vals pvals flat_map]; [congruence|].
  destruct (target_vals t (p_targets i)) as [x| |] eqn:E; cbn [obind]; try discriminate.
  destruct (pos_vals t ps) as [y| |]; cbn [obind]; try discriminate.
  apply target_vals_inv in E. intros H; inversion H; subst. unfold pvals in IH. rewrite <- (IH y eq_refl).
  reflexivity.
Qed.
Lemma event_vals_inv v t e r : event_vals v t e = Ok r -> r = evals v t e.
Proof.
  destruct e as [n s|s|[l n]]; cbn [event_vals evals].
  - destruct (nonzero_index t n) eqn:E; cbn [obind]; try discriminate. apply nonzero_index_inv in E.
    congruence.
  - destruct (pos_vals t (s_pos s)) eqn:E; cbn [obind]; try discriminate. apply pos_vals_inv in E.
    congruence.
  - destruct (nonzero_index t n) eqn:E; cbn [obind]; try discriminate. apply nonzero_index_inv in E.
    congruence.
Qed.
Lemma events_vals_inv v t evs r : events_vals v t evs = Ok r -> r = flat_map (evals v t) evs.
Proof.
  revert r. induction evs as [|e evs IH]; intros r; cbn [events_vals flat_map]; [congruence|].
  destruct (event_vals v t e) eqn:E; cbn [obind]; try discriminate.
  destruct (events_vals v t evs) eqn:F; cbn [obind]; try discriminate.
  apply event_vals_inv in E. intros H; inversion H; subst. f_equal. auto.
Qed.

Lemma target_vals_ok t ts : (forall n, In n (map fst ts) -> In n t) -> target_vals t ts = Ok (tvals t ts).
Proof.
  induction ts as [|[n c] ts IH]; intros H; cbn [target_vals tvals flat_map]; auto.
  rewrite index_checked_ok by (apply H; cbn; auto). cbn [obind].
  rewrite IH by (intros; apply H; cbn; auto). reflexivity.
Qed.
Lemma pos_vals_ok t ps :
  (forall n, In n (flat_map (fun '(_, i) => map fst (p_targets i)) ps) -> In n t) ->
  pos_vals t ps = Ok (pvals t ps).
Proof.
  induction ps as [|[l i] ps IH]; intros H; cbn [pos_vals pvals flat_map]; auto.
  rewrite target_vals_ok by (intros; apply H; cbn; apply in_or_app; auto). cbn [obind].
  rewrite IH by (intros; apply H; cbn; apply in_or_app; auto). reflexivity.
Qed.
Lemma events_vals_ok v t evs : hd_error t = Some [] ->
  (forall e n, In e evs -> In n (ev_function_names e) -> n <> []) ->
  (forall e n, In e evs -> In n (ev_names e) -> In n t) ->
  events_vals v t evs = Ok (flat_map (evals v t) evs).
Proof.
  intros Hd. induction evs as [|e evs IH]; intros N H; cbn [events_vals flat_map]; auto.
  assert (E : event_vals v t e = Ok (evals v t e)).
  { destruct e as [n s|s|[l n]]; cbn [event_vals evals].
    - destruct (nonzero_index_ok t n) as [-> _]; auto.
      + apply (N (ETop n s)); cbn; auto.
      + apply (H (ETop n s)); cbn; auto.
    - rewrite pos_vals_ok; auto. intros n I. apply (H (ENode s)); cbn; auto.
    - destruct (nonzero_index_ok t n) as [-> _]; auto.
      + apply (N (ECall (l, n))); cbn; auto.
      + apply (H (ECall (l, n))); cbn; auto. }
  rewrite E. cbn [obind]. rewrite IH; [reflexivity| |]; intros; [eapply N|eapply H]; eauto; right; auto.
Qed.

(** ** Lengths *)

(** 32-bit words a value occupies (strings: see [string_words]) *)
Definition words1 (v : gval) : Z := match v with VWord _ => 1 | VCounter _ => 2 | VString _ => 0 end.
Definition words (vs : list gval) : Z := fold_right (fun v a => words1 v + a) 0 vs.
Lemma words_app a b : words (a ++ b) = words a + words b.
Proof. unfold words. induction a; cbn [app fold_right]; lia. Qed.

Lemma fold_sum {A} (f : A -> Z) l : forall a, fold_left (fun a e => a + f e) l a
  = a + fold_right (fun e b => f e + b) 0 l.
Proof. induction l; intros a0; cbn [fold_left fold_right]; [lia|]. rewrite IHl. lia. Qed.

Definition elen (evs : list event) : Z := fold_right (fun e b => event_length e + b) 0 evs.
Definition etop (evs : list event) : Z := fold_right (fun e b => event_top e + b) 0 evs.
Lemma elen_app a b : elen (a ++ b) = elen a + elen b.
Proof. unfold elen. induction a; cbn [app fold_right]; lia. Qed.
Lemma etop_app a b : etop (a ++ b) = etop a + etop b.
Proof. unfold etop. induction a; cbn [app fold_right]; lia. Qed.

Lemma words_tvals t ts : words (tvals t ts) = 5 * zlen ts.
Proof.
  induction ts as [|[n c] ts IH]; [reflexivity|]. cbn [tvals flat_map] in *. rewrite words_app.
  unfold tvals in IH. rewrite IH, zlen_cons.
  change (words [VWord HIST_TYPE_INDIR_CALL_TOPN; VCounter (ix t n); VCounter c]) with 5. lia.
Qed.
Lemma words_pvals t ps : words (pvals t ps) = 4 * zlen ps
  + fold_right (fun '(_, i) a => zlen (p_targets i) * 5 + a) 0 ps.
Proof.
  induction ps as [|[l i] ps IH]; [reflexivity|]. cbn [pvals flat_map] in *. rewrite words_app.
  unfold pvals in IH. rewrite IH, zlen_cons. cbn [fold_right].
  change (words (VWord (GenerateCompressedOffset l) :: VWord (zlen (p_targets i)) :: VCounter (p_count i)
           :: tvals t (p_targets i))) with (1 + (1 + (2 + words (tvals t (p_targets i))))).
  rewrite words_tvals. lia.
Qed.

(** one symbol without its name word: everything the lengther counts, minus the
    name word of the symbol itself *)
Lemma traverse_length v t s :
  words (flat_map (evals v t) (traverse s)) = elen (traverse s) - 1 /\ etop (traverse s) = 0.
Proof.
  induction s as [h tot ts pos calls IH] using symbol_ind'.
  cbn [traverse]. cbn [flat_map]. rewrite words_app.
  assert (C : words (flat_map (evals v t) (flat_map (fun '(k, c) => ECall k :: traverse c) calls))
     = elen (flat_map (fun '(k, c) => ECall k :: traverse c) calls) + zlen calls /\
     etop (flat_map (fun '(k, c) => ECall k :: traverse c) calls) = 0).
  { clear - IH. induction calls as [|[k c] calls IHc]; [split; reflexivity|].
    cbn [flat_map]. rewrite flat_map_app, words_app, elen_app, etop_app, zlen_cons.
    destruct (IH k c (or_introl eq_refl)) as [A B].
    destruct IHc as [D E]; [intros; apply (IH k0 c0); right; auto|].
    rewrite D, E. cbn [flat_map]. rewrite words_app, A.
    change (elen (ECall k :: traverse c)) with (0 + elen (traverse c)).
    change (etop (ECall k :: traverse c)) with (0 + etop (traverse c)). rewrite B.
    destruct k as [l n]. change (words (evals v t (ECall (l, n)))) with 2. lia. }
  destruct C as [C D]. rewrite C.
  cbn [evals s_pos s_calls].
  change (words (VWord (zlen pos) :: VWord (zlen calls) :: pvals t pos)) with (1 + (1 + words (pvals t pos))).
  rewrite words_pvals.
  change (elen (ENode (Sym h tot ts pos calls) :: flat_map (fun '(k, c) => ECall k :: traverse c) calls))
    with (event_length (ENode (Sym h tot ts pos calls)) + elen (flat_map (fun '(k, c) => ECall k :: traverse c) calls)).
  change (etop (ENode (Sym h tot ts pos calls) :: flat_map (fun '(k, c) => ECall k :: traverse c) calls))
    with (0 + etop (flat_map (fun '(k, c) => ECall k :: traverse c) calls)).
  cbn [event_length s_pos s_calls]. lia.
Qed.

Lemma start_length v t thr tops :
  words (flat_map (evals v t) (start thr tops))
  = lengther_length (start thr tops)
    + (if 3 <=? v then 2 * lengther_num_functions (start thr tops) else 0).
Proof.
  unfold lengther_length, lengther_num_functions. rewrite !fold_sum.
  fold (elen (start thr tops)). fold (etop (start thr tops)).
  unfold start. induction tops as [|[n s] tops IH]; [destruct (3 <=? v); reflexivity|].
  cbn [flat_map]. rewrite flat_map_app, words_app, elen_app, etop_app, IH.
  destruct (ShouldEmit thr (s_total s));
    [|change (words (flat_map (evals v t) [])) with 0; change (elen []) with 0; change (etop []) with 0;
      destruct (3 <=? v); lia].
  cbn [flat_map]. rewrite words_app. destruct (traverse_length v t s) as [A B]. rewrite A.
  change (elen (ETop n s :: traverse s)) with (0 + elen (traverse s)).
  change (etop (ETop n s :: traverse s)) with (1 + etop (traverse s)). rewrite B.
  assert (words (evals v t (ETop n s)) = if 3 <=? v then 5 else 3) as ->.
  { cbn [evals]. destruct (3 <=? v); reflexivity. }
  destruct (3 <=? v); lia.
Qed.

Lemma start_num_functions thr tops :
  lengther_num_functions (start thr tops)
  = zlen (filter (fun ns => ShouldEmit thr (s_total (snd ns))) tops).
Proof.
  unfold lengther_num_functions. rewrite fold_sum. fold (etop (start thr tops)).
  unfold start. induction tops as [|[n s] tops IH]; [reflexivity|].
  cbn [flat_map filter snd]. rewrite etop_app.
  destruct (ShouldEmit thr (s_total s)); [|cbn [etop fold_right]; lia].
  rewrite zlen_cons. change (etop (ETop n s :: traverse s)) with (1 + etop (traverse s)).
  destruct (traverse_length 0 [] s) as [_ ->]. lia.
Qed.

Lemma zlen_write_val v g : words1 g <> 0 -> zlen (write_val v g []) = 4 * words1 g.
Proof.
  destruct g; cbn [write_val words1]; intros H; [reflexivity|reflexivity|lia].
Qed.
Lemma zlen_write_vals v vs : Forall (fun g => words1 g <> 0) vs -> zlen (write_vals v vs) = 4 * words vs.
Proof.
  induction 1 as [|g vs Hg Hvs IH]; [reflexivity|].
  rewrite write_vals_cons, zlen_app, IH, zlen_write_val by auto. unfold words; cbn [fold_right]. lia.
Qed.
Lemma write_vals_app v a b : write_vals v (a ++ b) = write_vals v a ++ write_vals v b.
Proof.
  induction a as [|x a IH]; [reflexivity|]. cbn [app]. rewrite !write_vals_cons, IH, app_assoc. reflexivity.
Qed.
Lemma evals_no_string v t e : Forall (fun g => words1 g <> 0) (evals v t e).
Proof.
  assert (T : forall ts, Forall (fun g => words1 g <> 0) (tvals t ts)).
  { induction ts as [|[n c] ts IH]; [constructor|]. cbn [tvals flat_map] in *. unfold tvals in IH.
    repeat (constructor; [cbn; lia|]). exact IH. }
  assert (P : forall ps, Forall (fun g => words1 g <> 0) (pvals t ps)).
  { induction ps as [|[l i] ps IH]; [constructor|]. cbn [pvals flat_map] in *. unfold pvals in IH.
    apply Forall_app. split; [|exact IH].
    repeat (constructor; [cbn; lia|]). apply T. }
  destruct e as [n s|s|[l n]]; cbn [evals].
  - destruct (3 <=? v); repeat (constructor; [cbn; lia|]); constructor.
  - repeat (constructor; [cbn; lia|]). apply P.
  - repeat (constructor; [cbn; lia|]). constructor.
Qed.
Lemma events_no_string v t evs : Forall (fun g => words1 g <> 0) (flat_map (evals v t) evs).
Proof.
  induction evs; cbn [flat_map]; [constructor|]. apply Forall_app. split; auto. apply evals_no_string.
Qed.
