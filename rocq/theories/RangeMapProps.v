(** C22: the debug-info range map (NonOverlappingRangeMap). *)
From Verif Require Import Base RangeMapModel RangeMapProofs.

(** * Specification vocabulary *)

(** The maps that a client can build: any history of insertions of ranges
    [low, high) with low <= high none of which was rejected. *)
Inductive built {T} : list (rentry T) -> Prop :=
| built_empty : built []
| built_insert m low high v m' :
    built m -> 0 <= low <= high -> InsertRange m low high v = Ok m' -> built m'.

(** the value a client finds at an address *)
Definition value_at {T} (m : list (rentry T)) (a : Z) : option T :=
  option_map rval (Find m a).

(** the stored range [s, e) is strictly larger than and contains [low, high) *)
Definition stored_around {T} (m : list (rentry T)) (low high : Z) : Prop :=
  exists s e v, In ((s, e), v) m /\ s <= low /\ high <= e /\ ~ (s = low /\ e = high).

(** [low, high) and [s, e) overlap, and neither contains the other *)
Definition partial_overlap (low high s e : Z) : Prop :=
  (s < low < e /\ e < high) \/ (low < s < high /\ high < e).

(** * Theorems *)

Lemma built_wfb {T} (m : list (rentry T)) : built m -> wfb 0 m.
Proof.
  induction 1 as [|m low high v m' B IH R I]; [exact Logic.I|].
  destruct (Z.eq_dec low high) as [->|N].
  - unfold InsertRange in I. rewrite Z.eqb_refl in I. inversion I; subst; auto.
  - destruct (InsertRange_spec m 0 low high v IH ltac:(lia) ltac:(lia)) as (A & B1 & C).
    pose proof (inside_dec m low high) as D.
    destruct D as [D|D].
    + destruct (A D) as (m1 & E & W & _). congruence.
    + pose proof (bad_overlap_dec m low high) as D2.
      destruct D2 as [D2|D2].
      * rewrite (C D D2) in I. discriminate.
      * destruct (B1 D D2) as (m1 & E & W & _). congruence.
Qed.

(** After any history the stored ranges are non-empty, in address order and
    pairwise disjoint. *)
Theorem C22_stored_ranges_disjoint {T} (m : list (rentry T)) :
  built m ->
  (forall s e v, In ((s, e), v) m -> s < e) /\
  (forall i j s1 e1 v1 s2 e2 v2,
     (i < j)%nat -> nth_error m i = Some ((s1, e1), v1) ->
     nth_error m j = Some ((s2, e2), v2) -> e1 <= s2).
Proof.
  intros B. apply built_wfb in B. revert B. generalize 0 as b.
  induction m as [|x m IH]; intros b W.
  - split; [intros s e v []|]. intros i j s1 e1 v1 s2 e2 v2 _ H. destruct i; discriminate.
  - cbn in W. destruct W as [W1 W2]. destruct (IH _ W2) as [I1 I2]. split.
    + intros s e v [->|I]; [cbn in W1; lia|eauto].
    + intros i j s1 e1 v1 s2 e2 v2 L H1 H2. destruct j as [|j]; [lia|]. cbn in H2.
      destruct i as [|i].
      * cbn in H1. inversion H1; subst. apply nth_error_In in H2.
        pose proof (wfb_In _ _ _ W2 H2) as R. cbn in R. unfold rlo, rhi in R; cbn in R. lia.
      * cbn in H1. eapply (I2 i j); eauto. lia.
Qed.

(** Lookup returns exactly the stored range that contains the address. *)
Theorem C22_find_is_containing_range {T} (m : list (rentry T)) (a s e : Z) (v : T) :
  built m ->
  (Find m a = Some ((s, e), v) <-> In ((s, e), v) m /\ s <= a < e).
Proof.
  intros B. apply built_wfb in B. rewrite (Find_lk 0) by auto. split.
  - intros H. apply lk_Some in H. exact H.
  - intros [H1 H2]. eapply lk_In; eauto.
Qed.

(** Inserting a range lying inside a stored one overrides exactly that part. *)
Theorem C22_insert_inside_overrides {T} (m : list (rentry T)) (low high : Z) (v : T) :
  built m -> 0 <= low < high -> stored_around m low high ->
  exists m', InsertRange m low high v = Ok m' /\
    forall a, value_at m' a =
      if (low <=? a) && (a <? high) then Some v else value_at m a.
Proof.
  intros B L (s & e & x & I & R). apply built_wfb in B.
  destruct (InsertRange_spec m 0 low high v B ltac:(lia) ltac:(lia)) as (A & _ & _).
  destruct A as (m' & E & W & F).
  - exists ((s, e), x). split; auto. unfold rlo, rhi; cbn. lia.
  - exists m'. split; auto. intros a. unfold value_at.
    rewrite !(Find_lk 0) by auto. apply F.
Qed.

(** Otherwise, if no stored range is partially overlapped, exactly the
    unmapped addresses of the range are mapped to the new value. *)
Theorem C22_insert_fills_gaps {T} (m : list (rentry T)) (low high : Z) (v : T) :
  built m -> 0 <= low <= high -> ~ stored_around m low high ->
  (forall s e x, In ((s, e), x) m -> ~ partial_overlap low high s e) ->
  exists m', InsertRange m low high v = Ok m' /\
    forall a, value_at m' a =
      match value_at m a with
      | Some x => Some x
      | None => if (low <=? a) && (a <? high) then Some v else None
      end.
Proof.
  intros B L N P. apply built_wfb in B.
  destruct (Z.eq_dec low high) as [->|NE].
  - exists m. unfold InsertRange. rewrite Z.eqb_refl. split; auto. intros a.
    assert ((high <=? a) && (a <? high) = false) as -> by lia.
    destruct (value_at m a); auto.
  - destruct (InsertRange_spec m 0 low high v B ltac:(lia) ltac:(lia)) as (_ & A & _).
    destruct A as (m' & E & W & F).
    + intros ([[s e] x] & I & R). apply N. exists s, e, x. split; auto.
      unfold rlo, rhi in R; cbn in R. lia.
    + intros ([[s e] x] & I & R). unfold rlo, rhi in R; cbn in R. apply (P s e x I).
      unfold partial_overlap. tauto.
    + exists m'. split; auto. intros a. unfold value_at.
      rewrite !(Find_lk 0) by auto. rewrite F. destruct (lk m a); auto.
Qed.

(** When an insertion is rejected (CHECK failure): exactly when no stored
    range is around it, and it partially overlaps a stored range - except
    when the partially overlapped range lies to the right and abuts another
    stored range on its left. *)
Theorem C22_rejected_iff {T} (m : list (rentry T)) (low high : Z) (v : T) :
  built m -> 0 <= low <= high -> ~ stored_around m low high ->
  (InsertRange m low high v = Abort <->
   exists s e x, In ((s, e), x) m /\
     ((s < low < e /\ e < high) \/
      (low < s < high /\ high < e /\ value_at m (s - 1) = None))).
Proof.
  intros B L N. apply built_wfb in B.
  destruct (Z.eq_dec low high) as [->|NE].
  { unfold InsertRange. rewrite Z.eqb_refl. split; [discriminate|].
    intros (s & e & x & _ & [H|(H & _)]); lia. }
  destruct (InsertRange_spec m 0 low high v B ltac:(lia) ltac:(lia)) as (_ & A & C).
  assert (NI : ~ inside m low high).
  { intros ([[s e] x] & I & R). apply N. exists s, e, x. split; auto.
      unfold rlo, rhi in R; cbn in R. lia. }
  assert (BO : bad_overlap m low high <-> exists s e x, In ((s, e), x) m /\
     ((s < low < e /\ e < high) \/
      (low < s < high /\ high < e /\ value_at m (s - 1) = None))).
  { unfold bad_overlap, value_at. split.
    - intros ([[s e] x] & I & R). exists s, e, x. split; auto.
      unfold rlo, rhi in R; cbn in R. rewrite (Find_lk 0) by auto.
      destruct R as [R|(R1 & R2 & R3)]; [left; auto|right]. rewrite R3. auto.
    - intros (s & e & x & I & R). exists ((s, e), x). split; auto.
      unfold rlo, rhi; cbn. rewrite (Find_lk 0) in R by auto.
      destruct R as [R|(R1 & R2 & R3)]; [left; auto|right].
      destruct (lk m (s - 1)); [discriminate|auto]. }
  split.
  - intros Ab. apply BO.
    (* if there were no bad overlap the result would be Ok *)
    destruct (InsertRange m low high v) as [m'| |] eqn:E; try discriminate.
    pose proof (bad_overlap_dec m low high) as Dec.
    destruct Dec as [D|D]; auto. destruct (A NI D) as (m' & E' & _). congruence.
  - intros H. apply C; auto. apply BO; auto.
Qed.

(** The documented rule "any other partial overlap makes a CHECK fail"
    (nonoverlapping_range_map.h 46-50) is therefore false: with [0,5) and
    [5,10) stored, [0,7) is accepted although it cuts [5,10). *)
Theorem C22_partial_overlap_accepted_refuted :
  exists (m : list (rentry nat)) low high v m',
    built m /\ 0 <= low < high /\
    (exists s e x, In ((s, e), x) m /\ partial_overlap low high s e) /\
    ~ stored_around m low high /\
    InsertRange m low high v = Ok m' /\ m' = m.
Proof.
  exists [((0, 5), 1%nat); ((5, 10), 2%nat)], 0, 7, 3%nat, [((0, 5), 1%nat); ((5, 10), 2%nat)].
  split; [|split; [lia|split; [|split; [|split; reflexivity]]]].
  - eapply (built_insert [((0,5),1%nat)] 5 10 2%nat); [|lia|reflexivity].
    eapply (built_insert [] 0 5 1%nat); [constructor|lia|reflexivity].
  - exists 5, 10, 2%nat. split; [right; left; auto|]. right; lia.
  - intros (s & e & x & I & R). cbn in I. destruct I as [I|[I|[]]]; inversion I; subst; lia.
Qed.

(** The hypothesis low <= high is needed: an inverted range corrupts the map. *)
Theorem C22_inverted_range_corrupts_refuted :
  exists (m m' : list (rentry nat)) low high v,
    built m /\ high < low /\ InsertRange m low high v = Ok m' /\
    exists s e x, In ((s, e), x) m' /\ e < s.
Proof.
  exists [((0, 10), 1%nat)], [((0, 8), 1%nat); ((5, 10), 1%nat); ((8, 5), 2%nat)], 8, 5, 2%nat.
  split; [|split; [lia|]].
  - eapply (built_insert [] 0 10 1%nat); [constructor|lia|reflexivity].
  - split; [reflexivity|]. exists 8, 5, 2%nat. split; [right; right; left; auto|lia].
Qed.

(** InsertRangeList of pairwise arbitrary ranges into the map is the sequence of
    insertions (bottom-up insertion of a hierarchy): non-vacuity, a nested
    case with a gap fill on both sides of two stored ranges. *)
Example C22_nonvacuous :
  exists m, InsertRangeList [((5, 7), 1%nat); ((10, 12), 1%nat)] [(0, 15); (2, 3)] 2%nat = Ok m /\
    m = [((0, 2), 2%nat); ((2, 3), 2%nat); ((3, 5), 2%nat); ((5, 7), 1%nat); ((7, 10), 2%nat);
         ((10, 12), 1%nat); ((12, 15), 2%nat)] /\ built m.
Proof.
  eexists. split; [reflexivity|]. split; [reflexivity|].
  eapply (built_insert [((0, 5), 2%nat); ((5, 7), 1%nat); ((7, 10), 2%nat);
         ((10, 12), 1%nat); ((12, 15), 2%nat)] 2 3 2%nat); [|lia|reflexivity].
  eapply (built_insert [((5, 7), 1%nat); ((10, 12), 1%nat)] 0 15 2%nat); [|lia|reflexivity].
  eapply (built_insert [((5, 7), 1%nat)] 10 12 1%nat); [|lia|reflexivity].
  eapply (built_insert [] 5 7 1%nat); [|lia|reflexivity]. constructor.
Qed.

Print Assumptions C22_stored_ranges_disjoint.
Print Assumptions C22_find_is_containing_range.
Print Assumptions C22_insert_inside_overrides.
Print Assumptions C22_insert_fills_gaps.
Print Assumptions C22_rejected_iff.
Print Assumptions C22_partial_overlap_accepted_refuted.
Print Assumptions C22_inverted_range_corrupts_refuted.
