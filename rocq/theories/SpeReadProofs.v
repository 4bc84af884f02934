(** Lemmas for C71. *)
From Coq Require Import Permutation Sorted.
From Verif Require Import Base SymbolModel MMapModel MMapSpec MMapProps BinaryIdModel GenModel GenSpec GenProofs SpeRangeModel SpeRangeSpec SpeRangeProofs SpeRangeProps.
From Verif Require Import AddrModel SampleModel SampleProofs SpeReadModel SpeReadSpec.

(** ** Names and maps *)
Lemma filenames_fold evs : forall s, NoDup s ->
  NoDup (fold_left (fun s ev => match ev_file ev with Some f => ninsert f s | None => s end) evs s) /\
  forall n, In n (fold_left (fun s ev => match ev_file ev with Some f => ninsert f s | None => s end) evs s) <-> In n s \/ exists ev, In ev evs /\ ev_file ev = Some n.
Proof.
  induction evs as [|ev evs IH]; intros s N; cbn [fold_left].
  - split; [exact N|]. intros n. split; [auto|intros [H|[ev [[] _]]]; exact H].
  - destruct (IH (match ev_file ev with Some f => ninsert f s | None => s end)) as [I1 I2]; [destruct (ev_file ev); [apply ninsert_NoDup, N|exact N]|].
    split; [exact I1|]. intros n. rewrite I2. destruct (ev_file ev) as [f|] eqn:E.
    + rewrite ninsert_In. split.
      * intros [[H| ->]|[e [H1 H2]]]; [auto|right; exists ev; split; [left; reflexivity|exact E]|right; exists e; split; [right; exact H1|exact H2]].
      * intros [H|[e [[<-|H1] H2]]]; [auto|left; right; congruence|right; eauto].
    + split; [intros [H|[e [H1 H2]]]; [auto|right; exists e; split; [right; exact H1|exact H2]]|intros [H|[e [[<-|H1] H2]]]; [auto|congruence|right; eauto]].
Qed.
Section Names.
  Context (W : world) (R : spe_reader) (bid : name) (d : profile).
  Hypothesis WG : world_good W.
  Hypothesis IDS : forall n h x, In (n, Some h) (pf_build_ids d) -> In x h -> 0 <= x < 256.
  Hypothesis ALIKE : forall ns n n', names_for R bid d ns -> In n ns -> In n' ns -> w_absolute W n = w_absolute W n'.
  Definition chosen_names : option (list name) :=
    let l := match bid with [] => filter (re_regex R) (filenames (pf_events d)) | _ => [] end in
    match l with
    | [] => match bid with [] => None | _ => GetBuildIdNames (pf_build_ids d) bid end
    | _ => Some l
    end.
  Lemma chosen_ok : match chosen_names with
    | Some ns => names_for R bid d ns /\ forall ns', names_for R bid d ns' -> Permutation ns ns'
    | None => forall ns, ~ names_for R bid d ns
    end.
  Proof.
    unfold chosen_names. cbv zeta. destruct (filenames_fold (pf_events d) [] (NoDup_nil _)) as [F1 F2]. fold (filenames (pf_events d)) in F1, F2.
    assert (G1 : NoDup (filter (re_regex R) (filenames (pf_events d)))) by (apply NoDup_filter, F1).
    assert (G2 : forall n, In n (filter (re_regex R) (filenames (pf_events d))) <-> re_regex R n = true /\ exists ev, In ev (pf_events d) /\ ev_file ev = Some n).
    { intros n. rewrite filter_In, F2. split; [intros [[[]|H] E]; auto|intros [E H]; auto]. }
    pose proof (get_names d bid IDS) as G. destruct bid as [|b bid'] eqn:EB.
    - destruct (filter (re_regex R) (filenames (pf_events d))) as [|n l] eqn:EF.
      + intros ns H. inversion H as [ns' E1 E2 E3 E4|ns' E1 E2 E3 E4]; subst; [congruence|]. destruct ns as [|n ns]; [congruence|]. apply (proj2 (G2 n)). apply E4. left. reflexivity.
      + split; [constructor 2; [reflexivity|discriminate|exact G1|exact G2]|]. intros ns H. inversion H as [ns' E1 E2 E3 E4|ns' E1 E2 E3 E4]; subst; [congruence|].
        apply NoDup_Permutation; [assumption..|]. intros x. rewrite G2, E4. reflexivity.
    - rewrite <- EB in *. assert (NB : bid <> []) by congruence. destruct (GetBuildIdNames (pf_build_ids d) bid) as [ns|].
      + destruct G as [H1 [H2 H3]]. split; [constructor 1; assumption|]. intros ns' H. inversion H as [ns'' E1 E2 E3 E4|ns'' E1 E2 E3 E4]; subst; [|congruence].
        apply NoDup_Permutation; [assumption..|]. intros x. rewrite H3, E4. reflexivity.
      + intros ns H. inversion H as [ns' E1 E2 E3 E4|ns' E1 E2 E3 E4]; subst; [|congruence]. destruct ns as [|n ns]; [congruence|]. apply (G n). apply E4. left. reflexivity.
  Qed.
  Lemma reader_maps m : CreatePerfDataReader W R bid (Some d) = Some m <->
    exists ns, names_for R bid d ns /\ SelectMMaps (MMapSelector (w_absolute W) (w_filename W) ns) (pf_events d) = inl m.
  Proof.
    unfold CreatePerfDataReader. pose proof chosen_ok as RN. unfold chosen_names in RN. cbv zeta in *.
    match type of RN with match ?t with _ => _ end => set (ch := t) in * end. clearbody ch. destruct ch as [ns|].
    - destruct RN as [L U]. rewrite (select_ext _ (MMapSelector (w_absolute W) (w_filename W) ns)).
      + split.
        * intros H. exists ns. split; [exact L|]. destruct (SelectMMaps _ _); [congruence|discriminate].
        * intros [ns' [L' H]]. rewrite (select_ext _ (MMapSelector (w_absolute W) (w_filename W) ns')); [rewrite H; reflexivity|].
          intros x. apply selector_perm; [apply U, L'|]. intros n n'. apply ALIKE, L.
      + intros x. apply selector_perm; [apply (wg_names _ WG)|]. intros n n' Hn Hn'. apply (ALIKE ns); [exact L|apply (Permutation_in _ (wg_names _ WG ns)); assumption ..].
    - split; [discriminate|]. intros [ns [L _]]. destruct (RN ns L).
  Qed.
End Names.

(** ** Counters *)
Lemma count_pos {A} (p : A -> bool) l : 0 < count p l -> exists x, In x l /\ p x = true.
Proof.
  unfold count, zlen. destruct (filter p l) as [|x k] eqn:E; [cbn; lia|]. intros _. exists x. apply filter_In. rewrite E. left. reflexivity.
Qed.
Lemma counts_entry {K} (eqb : K -> K -> bool) (sp : forall a b, reflect (a = b) (eqb a b)) cs e k v : counts eqb cs e -> In (k, v) cs -> e k = v /\ 0 < v.
Proof.
  intros [N P C] H. split; [|exact (P _ H)]. rewrite <- C, (count_in_cget eqb sp) by exact N. unfold cget. rewrite (aget_NoDup_In eqb sp k v cs N H). reflexivity.
Qed.
Lemma counts_conv {K} (eqb : K -> K -> bool) (sp : forall a b, reflect (a = b) (eqb a b)) cs e k : counts eqb cs e -> e k <> 0 -> In (k, e k) cs.
Proof.
  intros [N P C] H. rewrite <- C in *. rewrite (count_in_cget eqb sp) in * by exact N. unfold cget in *. destruct (aget eqb k cs) as [v|] eqn:E; [|congruence]. exact (aget_In eqb sp k v cs E).
Qed.
Lemma same_spec a b : reflect (a = b) (same a b).
Proof. destruct a as [a1 a2], b as [b1 b2]. unfold same. cbn [fst snd]. destruct (Z.eqb_spec a1 b1), (Z.eqb_spec a2 b2); cbn [andb]; constructor; congruence. Qed.
Lemma total_cinc {K} (eqb : K -> K -> bool) k (m : list (K * Z)) : total snd (cinc eqb k m) = total snd m + 1.
Proof.
  unfold cinc, cget. assert (G : forall v, total snd (aset eqb k v m) = total snd m - match aget eqb k m with Some x => x | None => 0 end + v).
  { intros v. induction m as [|[k' c] m IH]; cbn [aset aget total snd]; [lia|]. destruct (eqb k k'); cbn [total snd]; lia. }
  rewrite G. lia.
Qed.
Lemma spe_total m bn l : forall r, total snd (fst (AggregateSpe m bn l r)) + total snd (snd (AggregateSpe m bn l r)) <= total snd (fst r) + total snd (snd r) + zlen l.
Proof.
  unfold AggregateSpe, zlen. induction l as [|s l IH]; intros r; cbn [fold_left length]; [lia|]. etransitivity; [apply IH|]. unfold spe_step. cbv zeta.
  destruct (aget Z.eqb _ m); [|lia]. destruct (negb _ || negb _); [lia|]. destruct (sr_cond s && sr_not_taken s); cbn [fst snd]; rewrite total_cinc; lia.
Qed.
Lemma counts_word m bn d : spe_words (pf_spe d) -> let r := AggregateSpe m bn (pf_spe d) ([], []) in
  counted bn (d, m) (fst r) (snd r) /\ good_map word2 (fst r) /\ good_map word (snd r) /\ total snd (fst r) + total snd (snd r) <= records (d, m).
Proof.
  intros SW r. destruct (spe_good m bn (pf_spe d) ([], []) SW (good_nil _) (good_nil _)) as [G1 G2]. destruct (spe_all bn [(d, m)] ([], [])) as [C1 C2]. cbn [fold_left total fst snd] in C1, C2.
  change (cget addr2_eqb ?k []) with 0 in C1. fold r in G1, G2, C1, C2. split; [split|split; [exact G1|split; [exact G2|]]].
  - apply (GenProofs.good_counts addr2_eqb addr2_eqb_spec _ _ _ G1). intros k. rewrite C1. lia.
  - apply (GenProofs.good_counts Z.eqb Z.eqb_spec _ _ _ G2). intros k. rewrite C2. unfold cget. cbn [aget]. lia.
  - pose proof (spe_total m bn (pf_spe d) ([], [])) as T. fold r in T. cbn [fst snd total] in T. unfold records. cbn [fst]. lia.
Qed.

(** ** Bounds *)
Lemma total_nonneg {A} (g : A -> Z) l : (forall x, In x l -> 0 <= g x) -> 0 <= total g l.
Proof. induction l as [|x l IH]; intros H; cbn [total]; [lia|]. pose proof (H x (or_introl eq_refl)). specialize (IH (fun y Hy => H y (or_intror Hy))). lia. Qed.
Lemma sum_if_total {A} p (w : A -> Z) l : sum_if p w l = total (fun x => if p x then w x else 0) l.
Proof. induction l as [|x l IH]; cbn [sum_if total]; lia. Qed.
Lemma sum_if_le {A} (p q : A -> bool) (w : A -> Z) l : (forall x, In x l -> 0 <= w x) -> (forall x, In x l -> p x = true -> q x = true) -> sum_if p w l <= sum_if q w l.
Proof.
  induction l as [|x l IH]; intros N H; cbn [sum_if]; [lia|]. specialize (IH (fun y Hy => N y (or_intror Hy)) (fun y Hy => H y (or_intror Hy))). pose proof (N x (or_introl eq_refl)).
  pose proof (H x (or_introl eq_refl)) as Hx. destruct (p x), (q x); try lia; discriminate (Hx eq_refl).
Qed.
Lemma sum_if_disj {A} (p q r : A -> bool) (w : A -> Z) l : (forall x, In x l -> 0 <= w x) ->
  (forall x, In x l -> p x = true -> q x = true -> False) -> (forall x, In x l -> p x = true \/ q x = true -> r x = true) ->
  sum_if p w l + sum_if q w l <= sum_if r w l.
Proof.
  induction l as [|x l IH]; intros N H G; cbn [sum_if]; [lia|]. specialize (IH (fun y Hy => N y (or_intror Hy)) (fun y Hy => H y (or_intror Hy)) (fun y Hy => G y (or_intror Hy))). pose proof (N x (or_introl eq_refl)).
  pose proof (H x (or_introl eq_refl)) as H1. pose proof (G x (or_introl eq_refl)) as H2. destruct (p x), (q x), (r x); try lia; try (discriminate H2; auto); exfalso; auto.
Qed.
Lemma sum_if_true {A} (w : A -> Z) l : sum_if (fun _ => true) w l = total w l.
Proof. induction l as [|x l IH]; cbn [sum_if total]; lia. Qed.
Lemma executions_bound taken nt cf a0 : (forall e, In e taken -> 0 <= snd e) -> (forall e, In e nt -> 0 <= snd e) -> forall i,
  0 <= executions taken nt cf 4 a0 i <= sum_if (fun e => (snd (fst e) <=? a0 + Z.of_nat i * 4)) snd taken + total snd nt.
Proof.
  intros NT NN. assert (T0 : 0 <= total snd nt) by (apply total_nonneg; exact NN).
  assert (B0 : forall a, 0 <= branched_to taken a) by (intros a; unfold branched_to; rewrite sum_if_total; apply total_nonneg; intros e He; specialize (NT e He); destruct (_ =? _); lia).
  assert (F0 : forall a, 0 <= fell_through nt a <= total snd nt).
  { intros a. unfold fell_through. split; [rewrite sum_if_total; apply total_nonneg; intros e He; specialize (NN e He); destruct (_ =? _); lia|]. rewrite <- sum_if_true. apply sum_if_le; [exact NN|reflexivity]. }
  induction i as [|i IH]; cbn [executions].
  - split; [specialize (B0 (a0 + Z.of_nat 0 * 4)); lia|]. assert (branched_to taken (a0 + Z.of_nat 0 * 4) <= sum_if (fun e => snd (fst e) <=? a0 + Z.of_nat 0 * 4) snd taken); [|lia].
    apply sum_if_le; [exact NT|]. intros e _ E. lia.
  - set (b := a0 + Z.of_nat i * 4) in *. assert (S1 : branched_to taken (a0 + Z.of_nat (S i) * 4) + sum_if (fun e => snd (fst e) <=? b) snd taken <= sum_if (fun e => snd (fst e) <=? a0 + Z.of_nat (S i) * 4) snd taken).
    { apply sum_if_disj; [exact NT| |]; intros e _; unfold b; lia. }
    specialize (B0 (a0 + Z.of_nat (S i) * 4)). assert (P0 : 0 <= sum_if (fun e => snd (fst e) <=? b) snd taken) by (rewrite sum_if_total; apply total_nonneg; intros e He; specialize (NT e He); destruct (_ <=? _); lia).
    specialize (F0 b). cbv zeta. destruct (executions taken nt cf 4 a0 i =? 0); [lia|]. destruct (cf b); lia.
Qed.

(** ** Targets *)
Lemma targets_bounds tk : (forall t, is_target tk t -> ~ inside t) \/ exists a0 last, lowest_target tk a0 /\ highest_target tk last.
Proof.
  induction tk as [|[[f t] c] tk IH]; [left; intros t [f [c []]]|]. destruct (Z.eq_dec t (2 ^ 64 - 1)) as [->|N].
  - destruct IH as [IH|[a0 [la [[L1 [L2 L3]] [H1 [H2 H3]]]]]].
    + left. intros t [f' [c' [H|H]]]; [injection H as _ <- _; unfold inside; lia|]. apply IH. exists f', c'. exact H.
    + right. exists a0, la. assert (X : forall b, is_target ((f, 2 ^ 64 - 1, c) :: tk) b -> inside b -> is_target tk b).
      { intros b [f' [c' [H|H]]] I; [injection H as _ <- _; unfold inside in I; lia|exists f', c'; exact H]. }
      assert (Y : forall b, is_target tk b -> is_target ((f, 2 ^ 64 - 1, c) :: tk) b) by (intros b [f' [c' H]]; exists f', c'; right; exact H).
      split; (split; [apply Y; assumption|split; [assumption|]]); intros b Hb I; [apply L3|apply H3]; auto.
  - right. assert (TT : is_target ((f, t, c) :: tk) t) by (exists f, c; left; reflexivity).
    assert (Y : forall b, is_target tk b -> is_target ((f, t, c) :: tk) b) by (intros b [f' [c' H]]; exists f', c'; right; exact H).
    assert (X : forall b, is_target ((f, t, c) :: tk) b -> b = t \/ is_target tk b) by (intros b [f' [c' [H|H]]]; [left; congruence|right; exists f', c'; exact H]).
    destruct IH as [IH|[a0 [la [[L1 [L2 L3]] [H1 [H2 H3]]]]]].
    + exists t, t. split; (split; [exact TT|split; [exact N|]]); intros b Hb I; destruct (X b Hb) as [->|Hb']; try lia; destruct (IH b Hb' I).
    + exists (Z.min t a0), (Z.max t la). split; (split; [|split]).
      * destruct (Z.min_spec t a0) as [[_ ->]|[_ ->]]; auto.
      * destruct (Z.min_spec t a0) as [[_ ->]|[_ ->]]; auto.
      * intros b Hb I. destruct (X b Hb) as [->|Hb']; [lia|]. specialize (L3 b Hb' I). lia.
      * destruct (Z.max_spec t la) as [[_ ->]|[_ ->]]; auto.
      * destruct (Z.max_spec t la) as [[_ ->]|[_ ->]]; auto.
      * intros b Hb I. destruct (X b Hb) as [->|Hb']; [lia|]. specialize (H3 b Hb' I). lia.
Qed.

(** ** Offsets *)
Definition seg_low (segs : list (Z * Z)) (a : Z) : Prop := match segs with [] => True | (_, sv) :: _ => a < sv end.
Lemma offset_cases segs a : (seg_low segs a /\ GetFileOffsetFromStaticVaddr segs a = Abort) \/ (~ seg_low segs a /\ exists x, GetFileOffsetFromStaticVaddr segs a = Ok x).
Proof.
  unfold GetFileOffsetFromStaticVaddr. destruct segs as [|[so sv] segs]; cbn [seg_before seg_low]; [left; auto|]. destruct (Z.ltb_spec a sv); [left; auto|]. right. split; [lia|].
  assert (G : forall l p, exists q, seg_before l (Some p) a = Some q). { induction l as [|[so' sv'] l IH]; intros p; cbn [seg_before]; [eauto|]. destruct (a <? sv'); eauto. }
  destruct (G segs (so, sv)) as [[so' sv'] ->]. eauto.
Qed.
Lemma u64_small a : 0 <= a < 2 ^ 63 -> u64 a = a.
Proof. intros H. unfold u64, w64. apply Z.mod_small. lia. Qed.
Lemma offset_one so sv a : 0 <= so < 2 ^ 63 -> 0 <= sv < 2 ^ 63 -> sv <= a < 2 ^ 63 -> GetFileOffsetFromStaticVaddr [(so, sv)] (u64 a) = Ok (so + a - sv).
Proof.
  intros H1 H2 H3. rewrite u64_small by lia. unfold GetFileOffsetFromStaticVaddr. cbn [seg_before]. destruct (Z.ltb_spec a sv); [lia|]. f_equal. unfold u64, w64. apply Z.mod_small. lia.
Qed.

(** ** Maps of sums *)
Lemma swap_sums {A B} (f : A -> B -> Z) la lb : total (fun a => total (f a) lb) la = total (fun b => total (fun a => f a b) la) lb.
Proof.
  induction la as [|a la IH]; cbn [total]; [induction lb; cbn [total]; lia|]. rewrite IH. clear IH. induction lb as [|b lb IH]; cbn [total]; lia.
Qed.
Lemma total_ext {A} (f g : A -> Z) l : (forall x, In x l -> f x = g x) -> total f l = total g l.
Proof. induction l as [|x l IH]; intros H; cbn [total]; [reflexivity|]. rewrite (H x (or_introl eq_refl)), IH; [reflexivity|]. intros y Hy. apply H. right. exact Hy. Qed.
Lemma total_zero {A} (l : list A) : total (fun _ => 0) l = 0.
Proof. induction l as [|x l IH]; cbn [total]; [reflexivity|]. rewrite IH. reflexivity. Qed.
Lemma total_one {K} (eqb : K -> K -> bool) (sp : forall a b, reflect (a = b) (eqb a b)) (m : list (K * Z)) k z : NoDup (map fst m) -> In k (map fst m) ->
  total (fun e => if eqb k (fst e) then z else 0) m = z.
Proof.
  induction m as [|[k' v] m IH]; intros N H; [destruct H|]. cbn [map fst] in N, H. apply NoDup_cons_iff in N as [N1 N2]. cbn [total fst]. destruct (sp k k') as [->|NE].
  - rewrite (total_ext _ (fun _ => 0)). + rewrite total_zero. lia. + intros [k1 v1] H1. cbn [fst]. destruct (sp k' k1) as [->|]; [|reflexivity]. exfalso. apply N1. apply in_map_iff. exists (k1, v1). auto.
  - destruct H as [H|H]; [congruence|]. rewrite (IH N2 H). lia.
Qed.
Lemma holds_sums_total off m R (P : Z -> Z -> bool) : holds_sums off m R ->
  total (fun e => if P (fst (fst e)) (snd (fst e)) then snd e else 0) m = sum_if (fun r => P (off (r_first r)) (off (r_last r))) r_weight R.
Proof.
  intros [N H]. rewrite sum_if_total. transitivity (total (fun e => total (fun r => if same (off (r_first r), off (r_last r)) (fst e) then (if P (off (r_first r)) (off (r_last r)) then r_weight r else 0) else 0) R) m).
  - apply total_ext. intros [[x y] v] He. cbn [fst snd]. destruct (H x y) as [H1 _]. rewrite (H1 v He), sum_if_total.
    destruct (P x y) eqn:EP.
    + apply total_ext. intros r Hr. unfold same. cbn [fst snd]. destruct (Z.eqb_spec (off (r_first r)) x) as [->|]; cbn [andb]; [|reflexivity]. destruct (Z.eqb_spec (off (r_last r)) y) as [->|]; [|reflexivity]. rewrite EP. reflexivity.
    + symmetry. rewrite (total_ext _ (fun _ => 0)); [apply total_zero|]. intros r Hr. destruct (same_spec (off (r_first r), off (r_last r)) (x, y)) as [E|]; [|reflexivity]. injection E as -> ->. rewrite EP. reflexivity.
  - rewrite swap_sums. apply total_ext. intros r Hr. apply (total_one same same_spec m); [exact N|]. destruct (H (off (r_first r)) (off (r_last r))) as [_ H2]. apply H2. eauto.
Qed.

(** ** Adding without overflow *)
Lemma u64_id x : 0 <= x < 2 ^ 64 -> u64 x = x.
Proof. intros H. unfold u64, w64. apply Z.mod_small. exact H. Qed.
Lemma madd_total {K} (eqb : K -> K -> bool) (sp : forall a b, reflect (a = b) (eqb a b)) (g : K -> bool) m k v : 0 <= match aget eqb k m with Some x => x | None => 0 end + v < 2 ^ 64 ->
  total (fun e => if g (fst e) then snd e else 0) (madd eqb m (k, v)) = total (fun e => if g (fst e) then snd e else 0) m + (if g k then v else 0).
Proof.
  intros B. unfold madd. cbn [fst snd]. rewrite u64_id by exact B. set (x := match aget eqb k m with Some x => x | None => 0 end) in *.
  assert (G : forall z, total (fun e => if g (fst e) then snd e else 0) (aset eqb k z m) = total (fun e => if g (fst e) then snd e else 0) m + (if g k then z - x else 0)).
  { intros z. unfold x. clear - sp. induction m as [|[k' c] m IH]; cbn [aset aget total fst snd]; [destruct (g k); lia|]. destruct (sp k k') as [->|]; cbn [total fst snd]; [destruct (g k'); lia|lia]. }
  rewrite G. destruct (g k); lia.
Qed.
(** Each key once, counts from 0 to a bound. *)
Definition bounded_map {K} (n : Z) (m : list (K * Z)) : Prop := NoDup (map fst m) /\ forall e, In e m -> 0 <= snd e <= n.
Lemma madd_all_total {K} (eqb : K -> K -> bool) (sp : forall a b, reflect (a = b) (eqb a b)) (l : list (K * Z)) : forall m nm nl,
  bounded_map nm m -> bounded_map nl l -> nm + nl < 2 ^ 64 -> 0 <= nm -> 0 <= nl ->
  bounded_map (nm + nl) (madd_all eqb l m) /\
  forall g : K -> bool, total (fun e => if g (fst e) then snd e else 0) (madd_all eqb l m) = total (fun e => if g (fst e) then snd e else 0) m + total (fun e => if g (fst e) then snd e else 0) l.
Proof.
  intros m nm nl [Nm Bm] [Nl Bl] LT N0 L0.
  assert (V : forall k, 0 <= match aget eqb k m with Some x => x | None => 0 end <= nm).
  { intros k. destruct (aget eqb k m) as [x|] eqn:E; [|lia]. apply (aget_In eqb sp) in E. exact (Bm _ E). }
  assert (G : forall l m', NoDup (map fst l) -> NoDup (map fst m') -> (forall e, In e l -> 0 <= snd e <= nl) -> (forall e, In e m' -> 0 <= snd e <= nm + nl) ->
     (forall k, In k (map fst l) -> 0 <= match aget eqb k m' with Some x => x | None => 0 end <= nm) ->
     bounded_map (nm + nl) (madd_all eqb l m') /\ forall g : K -> bool, total (fun e => if g (fst e) then snd e else 0) (madd_all eqb l m') = total (fun e => if g (fst e) then snd e else 0) m' + total (fun e => if g (fst e) then snd e else 0) l).
  { clear - sp LT N0 L0. induction l as [|[k v] l IH]; intros m Nl Nm Bl Bm V; cbn [madd_all fold_left].
    - split; [split; assumption|]. intros g. cbn [total]. lia.
    - cbn [map fst] in Nl, V. apply NoDup_cons_iff in Nl as [N1 N2]. pose proof (Bl _ (or_introl eq_refl)) as B1. cbn [snd] in B1. pose proof (V k (or_introl eq_refl)) as V1.
      change (fold_left (madd eqb) l (madd eqb m (k, v))) with (madd_all eqb l (madd eqb m (k, v))).
      destruct (IH (madd eqb m (k, v)) N2) as [I1 I2].
      + apply (NoDup_akeys_aset eqb sp). exact Nm.
      + intros e He. apply Bl. right. exact He.
      + intros e He. unfold madd in He. cbn [fst snd] in He. apply (aset_cases eqb sp) in He as [He| ->]; [exact (Bm e He)|]. cbn [snd]. rewrite u64_id by lia. lia.
      + intros k' Hk'. unfold madd. cbn [fst snd]. rewrite (aget_aset eqb sp). destruct (sp k' k) as [->|NE]; [contradiction|]. apply V. right. exact Hk'.
      + split; [exact I1|]. intros g. rewrite I2, (madd_total eqb sp) by lia. cbn [total fst snd]. lia. }
  apply G; [assumption..|intros e He; specialize (Bm e He); lia|]. intros k _. apply V.
Qed.
