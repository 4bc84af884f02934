(** Lemmas for C68. *)
From Verif Require Import Base SampleModel SampleSpec SampleProofs SampleProps SampleMergeModel SampleMergeSpec.

Lemma path_eqb_eq a : forall b, path_eqb a b = true <-> a = b.
Proof.
  induction a as [|x a IH]; intros [|y b]; cbn [path_eqb]; try (split; [discriminate|discriminate]); [split; auto|].
  rewrite Bool.andb_true_iff, Z.eqb_eq, IH. split; [intros [-> ->]; reflexivity|].
  intros E. injection E. auto.
Qed.

Lemma digit_val_nonneg b c d : digit_val b c = Some d -> 0 <= d.
Proof.
  unfold digit_val. intros H.
  destruct ((48 <=? c) && (c <=? 57)) eqn:E1; [|destruct ((97 <=? c) && (c <=? 102)) eqn:E2;
    [|destruct ((65 <=? c) && (c <=? 70)) eqn:E3; [|discriminate]]].
  all: match type of H with (if ?x then _ else _) = _ => destruct x; [|discriminate] end.
  all: injection H as <-; rewrite ?Bool.andb_true_iff in *; lia.
Qed.

Lemma scan_digits_nonneg b : 0 <= b -> forall s acc any v s', 0 <= acc ->
  scan_digits b acc any s = Some (v, s') -> 0 <= v.
Proof.
  intros B. induction s as [|c s IH]; intros acc any v s' A; cbn [scan_digits].
  - destruct any; [|discriminate]. intros H. injection H as <- _. exact A.
  - destruct (digit_val b c) as [d|] eqn:E.
    + intros H. apply digit_val_nonneg in E. eapply IH; [|exact H]. nia.
    + destruct any; [|discriminate]. intros H. injection H as <- _. exact A.
Qed.

Lemma scan_num_range b s v s' : 0 <= b -> scan_num b s = Some (v, s') -> u64_range v.
Proof.
  intros B. unfold scan_num.
  set (q := match skip_ws s with 45 :: s0 => (true, s0) | 43 :: s0 => (false, s0) | _ => (false, skip_ws s) end).
  destruct q as [neg s1].
  set (s2 := if b =? 16 then _ else _).
  destruct (scan_digits b 0 false s2) as [[w s3]|] eqn:E; [|discriminate].
  intros H. injection H as <- _. apply (scan_digits_nonneg b B) in E; [|lia].
  unfold u64_range. change (2 ^ 64) with w64.
  destruct (Z.leb_spec w64 w); [unfold w64; lia|]. destruct neg; [|lia].
  unfold u64. apply Z.mod_pos_bound. reflexivity.
Qed.

Ltac scan_step := match goal with
  | |- optbind ?x _ = _ -> _ => destruct x as [?|] eqn:?; cbn [optbind]; [|discriminate]
  | |- (let '(_, _) := ?p in _) = _ -> _ => destruct p
  | |- optbind (let '(_, _) := ?p in _) _ = _ -> _ => destruct p
  end.

Lemma scan_range_ok s e s' : scan_range s = Some (e, s') ->
  (u64_range (fst (fst e)) /\ u64_range (snd (fst e))) /\ u64_range (snd e).
Proof.
  unfold scan_range. repeat scan_step. intros H. injection H as <- _. cbn [fst snd].
  repeat match goal with H : scan_num _ _ = _ |- _ => apply scan_num_range in H; [|lia] end. auto.
Qed.
Lemma scan_branch_ok s e s' : scan_branch s = Some (e, s') ->
  (u64_range (fst (fst e)) /\ u64_range (snd (fst e))) /\ u64_range (snd e).
Proof.
  unfold scan_branch. repeat scan_step. intros H. injection H as <- _. cbn [fst snd].
  repeat match goal with H : scan_num _ _ = _ |- _ => apply scan_num_range in H; [|lia] end. auto.
Qed.
Lemma scan_addr_ok s e s' : scan_addr s = Some (e, s') -> u64_range (fst e) /\ u64_range (snd e).
Proof.
  unfold scan_addr. repeat scan_step. intros H. injection H as <- _. cbn [fst snd].
  repeat match goal with H : scan_num _ _ = _ |- _ => apply scan_num_range in H; [|lia] end. auto.
Qed.

Lemma read_records_keeps {K} (eqb : K -> K -> bool) (sp : forall a b, reflect (a = b) (eqb a b))
  (scan : list Z -> option ((K * Z) * list Z)) (P : K -> Prop) :
  (forall s e s', scan s = Some (e, s') -> P (fst e) /\ u64_range (snd e)) ->
  forall n i m s m' s', NoDup (akeys m) -> Forall (fun e => P (fst e) /\ u64_range (snd e)) m ->
  read_records eqb scan n i m s = Ok (m', s') ->
  NoDup (akeys m') /\ Forall (fun e => P (fst e) /\ u64_range (snd e)) m'.
Proof.
  intros SC. induction n as [|n IH]; intros i m s m' s' N F; cbn [read_records].
  - intros H. injection H as <- _. auto.
  - destruct (scan s) as [[e s1]|] eqn:E; [|intros H; injection H as <- _; auto].
    destruct (i =? 2 ^ 31 - 1); [discriminate|]. intros H.
    destruct (madd_all_ok eqb sp P [e] m N F) as [N' F'].
    { constructor; [|constructor]. eapply SC; eauto. }
    eapply IH; [| |exact H]; auto.
Qed.

Lemma reads_ok c m : Append c samples0 = Ok (m, true) -> samples_ok m.
Proof.
  unfold Append, read_section. cbn [samples0 sa_range sa_addr sa_branch].
  destruct (scan_count c) as [[n1 c1]|]; [|discriminate].
  destruct (read_records pair_eqb scan_range (Z.to_nat n1) 0 [] c1) as [[r f1]| |] eqn:E1; try discriminate.
  cbn [obind]. destruct f1 as [f1|]; [|discriminate].
  destruct (scan_count f1) as [[n2 c2]|]; [|discriminate].
  destruct (read_records Z.eqb scan_addr (Z.to_nat n2) 0 [] c2) as [[a f2]| |] eqn:E2; try discriminate.
  cbn [obind]. destruct f2 as [f2|]; [|discriminate].
  destruct (scan_count f2) as [[n3 c3]|]; [|discriminate].
  destruct (read_records pair_eqb scan_branch (Z.to_nat n3) 0 [] c3) as [[b f3]| |] eqn:E3; try discriminate.
  cbn [obind]. intros H. injection H as <- _.
  destruct (read_records_keeps pair_eqb pair_eqb_spec scan_range (fun k => u64_range (fst k) /\ u64_range (snd k))
    scan_range_ok _ _ [] _ _ _ (NoDup_nil _) (Forall_nil _) E1) as [N1 F1].
  destruct (read_records_keeps Z.eqb Z_eqb_reflect scan_addr u64_range
    scan_addr_ok _ _ [] _ _ _ (NoDup_nil _) (Forall_nil _) E2) as [N2 F2].
  destruct (read_records_keeps pair_eqb pair_eqb_spec scan_branch (fun k => u64_range (fst k) /\ u64_range (snd k))
    scan_branch_ok _ _ [] _ _ _ (NoDup_nil _) (Forall_nil _) E3) as [N3 F3].
  unfold samples_ok. cbn [sa_range sa_addr sa_branch].
  split; [exact N1|]. split; [exact N2|]. split; [exact N3|].
  split; [|split]; (eapply Forall_impl; [|eassumption]); cbv beta; tauto.
Qed.

Lemma samples0_ok : samples_ok samples0.
Proof. unfold samples_ok. cbn. repeat split; constructor. Qed.

Lemma add_counts_assoc a b c : (forall x, c = Some x -> u64_range x) ->
  add_counts (add_counts a b) c = add_counts a (add_counts b c).
Proof.
  intros H. destruct a as [a|], b as [b|], c as [c|]; cbn; try reflexivity.
  f_equal. rewrite Zplus_mod_idemp_l, Zplus_mod_idemp_r. f_equal. lia.
Qed.
Lemma add_counts_none a : add_counts a None = a.
Proof. destruct a; reflexivity. Qed.
Lemma add_counts_none_l a : add_counts None a = a.
Proof. destruct a; reflexivity. Qed.

Lemma sum_fold (at_ : samples -> option Z) :
  (forall s t, samples_ok s -> samples_ok t -> at_ (Merge s t) = add_counts (at_ s) (at_ t)) ->
  (forall s x, samples_ok s -> at_ s = Some x -> u64_range x) ->
  forall ms w, samples_ok w -> Forall samples_ok ms ->
  at_ (fold_left Merge ms w) = sum_counts (map at_ (w :: ms)).
Proof.
  intros HM HR. induction ms as [|m ms IH]; intros w Ow F; cbn [fold_left map sum_counts fold_right].
  - rewrite add_counts_none. reflexivity.
  - inversion F; subst. rewrite IH; auto using Merge_ok. cbn [map sum_counts fold_right].
    rewrite HM by auto. fold (sum_counts (map at_ ms)).
    apply add_counts_assoc. intros x E.
    assert (G : forall l y, Forall samples_ok l -> sum_counts (map at_ l) = Some y -> u64_range y).
    { clear - HR. induction l as [|m l IH]; intros y F E; [discriminate|]. inversion F; subst.
      cbn [map sum_counts fold_right] in E. fold (sum_counts (map at_ l)) in E.
      destruct (at_ m) as [a|] eqn:EA, (sum_counts (map at_ l)) as [b|] eqn:EB; cbn in E; try discriminate.
      - injection E as <-. unfold u64_range. apply Z.mod_pos_bound. reflexivity.
      - injection E as <-. eapply HR; eauto.
      - injection E as <-. eapply IH; eauto. }
    eapply G; eauto.
Qed.

Lemma fold_Merge_ok ms : forall w, samples_ok w -> Forall samples_ok ms -> samples_ok (fold_left Merge ms w).
Proof. induction ms as [|m ms IH]; intros w O F; cbn [fold_left]; auto. inversion F; subst. apply IH; auto using Merge_ok. Qed.

Lemma sum_all_fold ms w : samples_ok w -> Forall samples_ok ms -> sum_of_all (w :: ms) (fold_left Merge ms w).
Proof.
  intros O F.
  assert (PW := C19_merge_pointwise).
  unfold sum_of_all. split; [|split]; intros k.
  - apply (sum_fold (fun m => range_at m k)); auto.
    + intros s t Os Ot. apply (PW s t Os Ot).
    + intros s x (N1 & N2 & N3 & F1 & F2 & F3) E. rewrite Forall_forall in F1.
      apply (aget_In pair_eqb pair_eqb_spec) in E. apply (F1 _ E).
  - apply (sum_fold (fun m => addr_at m k)); auto.
    + intros s t Os Ot. apply (PW s t Os Ot).
    + intros s x (N1 & N2 & N3 & F1 & F2 & F3) E. rewrite Forall_forall in F2.
      apply (aget_In Z.eqb Z_eqb_reflect) in E. apply (F2 _ E).
  - apply (sum_fold (fun m => branch_at m k)); auto.
    + intros s t Os Ot. apply (PW s t Os Ot).
    + intros s x (N1 & N2 & N3 & F1 & F2 & F3) E. rewrite Forall_forall in F3.
      apply (aget_In pair_eqb pair_eqb_spec) in E. apply (F3 _ E).
Qed.

Definition read_as fs perf pr (p : list Z) (m : samples) : Prop :=
  ReadSample fs perf pr p = Ok (Some m) .

Lemma merge_inputs_spec fs perf pr inputs : forall ms w,
  inputs_hold (read_as fs perf pr) inputs ms ->
  merge_inputs fs perf pr inputs w = Ok (Some (fold_left Merge ms w)).
Proof.
  unfold inputs_hold. induction inputs as [|p ins IH]; intros ms w H; cbn [filter] in H.
  - inversion H; subst. reflexivity.
  - destruct p as [|c p]; [cbn [merge_inputs]; apply IH; exact H|].
    inversion H as [|? m ? ms' R H']; subst. cbn [merge_inputs]. rewrite R. cbn [obind fold_left].
    apply IH. exact H'.
Qed.

Lemma merge_inputs_fails fs perf pr p l2 : p <> [] -> ReadSample fs perf pr p = Ok None ->
  forall l1 w, (forall q, In q l1 -> q = [] \/ exists r, ReadSample fs perf pr q = Ok r) ->
  merge_inputs fs perf pr (l1 ++ p :: l2) w = Ok None.
Proof.
  intros NP R. induction l1 as [|q l1 IH]; intros w H; cbn [app].
  - destruct p as [|c p]; [congruence|]. cbn [merge_inputs]. rewrite R. reflexivity.
  - destruct q as [|c q]; [cbn [merge_inputs]; apply IH; intros; apply H; right; auto|].
    cbn [merge_inputs]. destruct (H (c :: q) (or_introl eq_refl)) as [|[r E]]; [discriminate|].
    rewrite E. cbn [obind]. destruct r; [|reflexivity]. apply IH. intros; apply H; right; auto.
Qed.
