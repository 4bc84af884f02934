(** Lemmas on the address mapper. *)
From Verif Require Import Base SymbolModel SymbolProofs ElideModel StdSearch MapperModel MapperSpec.
From Coq Require Import Permutation Sorting.Sorted.

(** ** Addresses *)
Lemma u64_id x : 0 <= x < w64 -> u64 x = x.
Proof. intros H. unfold u64. apply Z.mod_small. exact H. Qed.

Lemma GetAddress_start mp i : layout_ok mp -> (i < blk_count mp)%nat ->
  GetAddress (mp_funcs mp) (nth i (mp_handles mp) no_handle) = blk_start mp i.
Proof. intros [H _] Hi. specialize (H i Hi). apply u64_id. unfold blk_start in *. lia. Qed.

Lemma end_u64 mp i : layout_ok mp -> (i < blk_count mp)%nat ->
  u64 (GetAddress (mp_funcs mp) (nth i (mp_handles mp) no_handle) +
       be_size (GetBBEntry (mp_funcs mp) (nth i (mp_handles mp) no_handle))) = blk_end mp i.
Proof.
  intros L Hi. rewrite GetAddress_start by assumption. destruct L as [H _]. specialize (H i Hi).
  apply u64_id. unfold blk_end in *. lia.
Qed.

Lemma start_mono mp i j : layout_ok mp -> (i <= j < blk_count mp)%nat -> blk_start mp i <= blk_start mp j.
Proof.
  intros [H1 H2] Hij. destruct (Nat.eq_dec i j) as [->|]; [lia|].
  specialize (H1 i ltac:(lia)). specialize (H2 i j ltac:(lia)). lia.
Qed.

(** The position [upper_bound] finds. *)
Lemma ub_pos mp a : layout_ok mp ->
  let u := upper_bound (fun i => a <? GetAddress (mp_funcs mp) (nth i (mp_handles mp) no_handle))
             (length (mp_handles mp)) in
  (u <= blk_count mp)%nat /\
  (forall i, (i < u)%nat -> blk_start mp i <= a) /\
  (forall i, (u <= i < blk_count mp)%nat -> a < blk_start mp i).
Proof.
  intros L u.
  destruct (upper_bound_spec (fun i => a <? GetAddress (mp_funcs mp) (nth i (mp_handles mp) no_handle))
             (length (mp_handles mp))) as [A [B C]].
  { intros i j Hij. rewrite !GetAddress_start by (auto; unfold blk_count; lia).
    pose proof (start_mono mp i j L ltac:(unfold blk_count; lia)). lia. }
  fold u in A, B, C. unfold blk_count. split; [exact A|]. split.
  - intros i Hi. specialize (B i Hi). cbv beta in B. rewrite GetAddress_start in B by (auto; unfold blk_count; lia). lia.
  - intros i Hi. specialize (C i Hi). cbv beta in C. rewrite GetAddress_start in C by (auto; unfold blk_count; lia). lia.
Qed.

Lemma first_at_spec mp a f it : layout_ok mp -> (it < blk_count mp)%nat ->
  let j := first_at (mp_funcs mp) (mp_handles mp) a f it in
  (j <= it)%nat /\
  (forall x, (j <= x < it)%nat -> blk_start mp x = a /\ blk_func mp x = f) /\
  (forall p, j = S p -> blk_start mp p <> a \/ blk_func mp p <> f).
Proof.
  intros L. induction it as [|p IH]; intros Hi j; unfold j; cbn [first_at].
  - split; [lia|]. split; [lia|discriminate].
  - rewrite GetAddress_start by (auto; lia). change (bh_func (nth p (mp_handles mp) no_handle)) with (blk_func mp p).
    destruct ((blk_start mp p =? a) && (blk_func mp p =? f)%nat) eqn:E.
    + destruct (IH ltac:(lia)) as [A [B C]]. split; [lia|]. split; [|exact C].
      intros x Hx. destruct (Nat.eq_dec x p) as [->|]; [lia|]. apply B; lia.
    + split; [lia|]. split; [lia|]. intros p' Hp. injection Hp as <-. lia.
Qed.

(** The full characterisation of the lookup. *)
Lemma FindBb_cases dbg mp a dir : layout_ok mp ->
  (exists i, (i < blk_count mp)%nat /\ blk_start mp i < a < blk_end mp i /\
     (forall k, (k < blk_count mp)%nat -> blk_start mp k <> a) /\ FindBb dbg mp a dir = Ok (Some i)) \/
  (exists k, (k < blk_count mp)%nat /\ blk_start mp k = a /\
     (forall x, (k < x < blk_count mp)%nat -> a < blk_start mp x) /\
     FindBb dbg mp a dir =
       match dir with
       | DTo => Ok (Some (first_at (mp_funcs mp) (mp_handles mp) a (blk_func mp k) k))
       | DFrom => if dbg && (blk_end mp k =? a) then Abort else Ok (Some k)
       end) \/
  ((forall i, (i < blk_count mp)%nat -> blk_start mp i <> a /\ ~ contains mp i a) /\
   FindBb dbg mp a dir = Ok None).
Proof.
  intros L. pose proof (ub_pos mp a L) as U. cbv zeta in U. unfold FindBb.
  remember (upper_bound (fun i => a <? GetAddress (mp_funcs mp) (nth i (mp_handles mp) no_handle))
             (length (mp_handles mp))) as u eqn:Eu.
  destruct U as [A [B C]]. destruct u as [|it].
  - right; right. split; [|reflexivity]. intros i Hi. specialize (C i ltac:(lia)). unfold contains. lia.
  - assert (Hit : (it < blk_count mp)%nat) by lia.
    rewrite end_u64 by assumption. rewrite GetAddress_start by assumption.
    pose proof (B it ltac:(lia)) as B0.
    assert (Hend : forall i, (i < it)%nat -> blk_end mp i <= blk_start mp it) by (intros i Hi; apply L; lia).
    destruct (blk_start mp it <? a) eqn:E1.
    + destruct (blk_end mp it <=? a) eqn:E2.
      * right; right. split; [|reflexivity]. intros i Hi. unfold contains.
        destruct (Nat.lt_trichotomy i it) as [H|[->|H]].
        -- specialize (Hend i H). pose proof (start_mono mp i it L ltac:(lia)). lia.
        -- lia.
        -- specialize (C i ltac:(lia)). lia.
      * left. exists it. split; [exact Hit|]. split; [lia|]. split; [|reflexivity].
        intros k Hk. destruct (Nat.lt_trichotomy k it) as [H|[->|H]].
        -- pose proof (start_mono mp k it L ltac:(lia)). lia.
        -- lia.
        -- specialize (C k ltac:(lia)). lia.
    + right; left. exists it. split; [exact Hit|]. split; [lia|].
      split; [intros x Hx; apply C; lia|]. destruct dir; [|reflexivity].
      replace (be_size (GetBBEntry (mp_funcs mp) (nth it (mp_handles mp) no_handle)) =? 0) with (blk_end mp it =? a);
        [reflexivity|]. unfold blk_end. lia.
Qed.

(** ** Building the list of blocks *)
Definition handles_of (fs : list func_map) (sel : list nat) : list bb_handle :=
  flat_map (fun i => map (BbHandle i) (seq 0 (nents fs i))) sel.

Lemma build_loop_ok fs : forall sel last acc hs,
  build_loop fs last sel acc = Ok hs -> hs = acc ++ handles_of fs sel.
Proof.
  induction sel as [|i sel IH]; intros last acc hs; cbn [build_loop handles_of flat_map].
  - intros E; injection E as <-. rewrite app_nil_r. reflexivity.
  - destruct (match last with Some l => negb (l <? fm_addr (nth i fs no_func)) | None => false end); [discriminate|].
    intros E. apply IH in E. rewrite E, <- app_assoc. reflexivity.
Qed.

Lemma build_loop_total fs : forall sel last acc,
  (forall l, last = Some l -> forall i, In i sel -> l < fm_addr (nth i fs no_func)) ->
  StronglySorted (fun i j => fm_addr (nth i fs no_func) < fm_addr (nth j fs no_func)) sel ->
  build_loop fs last sel acc = Ok (acc ++ handles_of fs sel).
Proof.
  induction sel as [|i sel IH]; intros last acc Hl Hs; cbn [build_loop handles_of flat_map].
  - rewrite app_nil_r. reflexivity.
  - inversion Hs as [|? ? Hs' Hf]; subst.
    assert (E : match last with Some l => negb (l <? fm_addr (nth i fs no_func)) | None => false end = false).
    { destruct last as [l|]; [|reflexivity]. specialize (Hl l eq_refl i (or_introl eq_refl)). lia. }
    rewrite E. rewrite IH.
    + rewrite <- app_assoc. reflexivity.
    + intros l El k Hk. injection El as <-. rewrite Forall_forall in Hf. apply Hf. exact Hk.
    + exact Hs'.
Qed.

Lemma In_handles_of fs sel h :
  In h (handles_of fs sel) <-> In (bh_func h) sel /\ (bh_bb h < nents fs (bh_func h))%nat.
Proof.
  unfold handles_of. rewrite in_flat_map. split.
  - intros [i [Hi Hm]]. apply in_map_iff in Hm as [b [<- Hb]]. apply in_seq in Hb. cbn. split; [exact Hi|lia].
  - intros [Hi Hb]. exists (bh_func h). split; [exact Hi|]. apply in_map_iff. exists (bh_bb h).
    split; [destruct h; reflexivity|]. apply in_seq. lia.
Qed.

Lemma handles_sorted fs : forall sel, StronglySorted lt sel ->
  StronglySorted (fun a b => (bh_func a < bh_func b)%nat \/ (bh_func a = bh_func b /\ (bh_bb a < bh_bb b)%nat))
    (handles_of fs sel).
Proof.
  induction sel as [|i sel IH]; intros Hs; cbn [handles_of flat_map]; [constructor|].
  inversion Hs as [|? ? Hs' Hf]; subst. specialize (IH Hs'). fold (handles_of fs sel).
  assert (Hrest : forall h, In h (handles_of fs sel) -> (i < bh_func h)%nat).
  { intros h Hh. apply In_handles_of in Hh as [Hh _]. rewrite Forall_forall in Hf. apply Hf. exact Hh. }
  generalize (nents fs i) as n. intros n. generalize 0%nat as s. induction n as [|n IHn]; intros s; cbn [seq map app]; [exact IH|].
  constructor; [apply IHn|]. apply Forall_forall. intros h Hh. cbn. apply in_app_or in Hh as [Hh|Hh].
  - apply in_map_iff in Hh as [b [<- Hb]]. apply in_seq in Hb. cbn. right; split; [reflexivity|lia].
  - left. apply Hrest. exact Hh.
Qed.

Lemma sorted_nth {A} (R : A -> A -> Prop) (l : list A) d i j :
  StronglySorted R l -> (i < j < length l)%nat -> R (nth i l d) (nth j l d).
Proof.
  intros Hs. revert i j. induction Hs as [|x l Hs IH Hf]; intros i j Hij; cbn [length] in Hij; [lia|].
  destruct j as [|j]; [lia|]. destruct i as [|i]; cbn [nth].
  - rewrite Forall_forall in Hf. apply Hf. apply nth_In. lia.
  - apply IH. lia.
Qed.

Lemma handles_NoDup fs sel : StronglySorted lt sel -> NoDup (handles_of fs sel).
Proof.
  intros Hs. pose proof (handles_sorted fs sel Hs) as H. induction H as [|h l H IH Hf]; constructor; [|exact IH].
  intros Hi. rewrite Forall_forall in Hf. specialize (Hf h Hi). lia.
Qed.

Lemma layout_from_binary fs sel : binary_ok fs -> StronglySorted lt sel ->
  (forall i, In i sel -> (i < length fs)%nat) ->
  layout_ok (Mapper sel fs (handles_of fs sel)).
Proof.
  intros [B0 [B1 [B2 [B3 B4]]]] Hs Hr. unfold layout_ok, blk_count. cbn [mp_handles mp_funcs].
  assert (Hin : forall i, (i < length (handles_of fs sel))%nat ->
     (bh_func (nth i (handles_of fs sel) no_handle) < length fs)%nat /\
     (bh_bb (nth i (handles_of fs sel) no_handle) < nents fs (bh_func (nth i (handles_of fs sel) no_handle)))%nat).
  { intros i Hi. assert (H : In (nth i (handles_of fs sel) no_handle) (handles_of fs sel)) by (apply nth_In; exact Hi).
    apply In_handles_of in H as [H1 H2]. split; [apply Hr; exact H1|exact H2]. }
  split.
  - intros i Hi. destruct (Hin i Hi) as [F1 F2]. unfold blk_start, blk_end, blk_start, GetBBEntry, GetFunctionEntry.
    cbn [mp_handles mp_funcs]. specialize (B0 _ F1). specialize (B1 _ _ F1 F2). unfold ent in B1. lia.
  - intros i j Hij. destruct (Hin i ltac:(lia)) as [F1 F2]. destruct (Hin j ltac:(lia)) as [G1 G2].
    pose proof (sorted_nth _ _ no_handle i j (handles_sorted fs sel Hs) Hij) as O.
    unfold blk_end, blk_start, GetBBEntry, GetFunctionEntry. cbn [mp_handles mp_funcs].
    set (h := nth i (handles_of fs sel) no_handle) in *. set (g := nth j (handles_of fs sel) no_handle) in *.
    destruct O as [O|[O1 O2]].
    + specialize (B4 (bh_func h) (bh_func g) (bh_bb h) ltac:(lia) F2).
      specialize (B1 _ _ G1 G2). unfold ent in *. lia.
    + specialize (B2 (bh_func h) (bh_bb h) (bh_bb g) F1). rewrite <- O1 in *. unfold ent in *. lia.
Qed.

(** ** Fall-through *)
Lemma ft_loop_spec fs f : forall n i,
  ft_loop fs f i n = true <-> (forall b, (i <= b < i + n)%nat -> be_fallthrough (ent fs f b) = true).
Proof.
  induction n as [|n IH]; intros i; cbn [ft_loop].
  - split; [intros _ b Hb; lia|reflexivity].
  - change (GetBBEntry fs (BbHandle f i)) with (ent fs f i).
    destruct (be_fallthrough (ent fs f i)) eqn:E.
    + rewrite IH. split; intros H b Hb.
      * destruct (Nat.eq_dec b i) as [->|]; [exact E|apply H; lia].
      * apply H; lia.
    + split; [discriminate|]. intros H. rewrite (H i) in E by lia. discriminate.
Qed.

Lemma CanFallThrough_iff mp i j : CanFallThrough mp i j = true <-> fallthrough_path mp i j.
Proof.
  unfold CanFallThrough, fallthrough_path, blk_func. cbv zeta.
  set (a := nth i (mp_handles mp) no_handle). set (b := nth j (mp_handles mp) no_handle).
  destruct (Nat.eqb_spec i j) as [E|E]; [tauto|].
  destruct (Nat.eqb_spec (bh_func a) (bh_func b)) as [Ef|Ef]; cbn [negb].
  - destruct (Nat.ltb_spec (bh_bb b) (bh_bb a)) as [El|El].
    + split; [discriminate|]. intros [H|[_ [H _]]]; [congruence|lia].
    + rewrite ft_loop_spec. replace (bh_bb a + (bh_bb b - bh_bb a))%nat with (bh_bb b) by lia.
      split; [intros H; right; auto|intros [H|[_ [_ H]]]; [congruence|exact H]].
  - split; [discriminate|]. intros [H|[H _]]; congruence.
Qed.

(** ** Sets *)
Lemma In_set_insert x y l : In y (set_insert x l) <-> y = x \/ In y l.
Proof.
  induction l as [|z l IH]; cbn [set_insert In]; [intuition congruence|].
  destruct (Nat.ltb_spec x z); cbn [In]; [intuition congruence|].
  destruct (Nat.eqb_spec x z); cbn [In]; [subst; intuition congruence|]. rewrite IH. intuition congruence.
Qed.

Lemma sorted_set_insert x l : StronglySorted lt l -> StronglySorted lt (set_insert x l).
Proof.
  induction 1 as [|z l Hs IH Hf]; cbn [set_insert]; [repeat constructor|].
  rewrite Forall_forall in Hf.
  destruct (Nat.ltb_spec x z).
  - constructor; [constructor; [exact Hs|apply Forall_forall; exact Hf]|].
    apply Forall_forall. intros y [<-|Hy]; [lia|]. specialize (Hf y Hy). lia.
  - destruct (Nat.eqb_spec x z); [constructor; [exact Hs|apply Forall_forall; exact Hf]|].
    constructor; [exact IH|]. apply Forall_forall. intros y Hy. apply In_set_insert in Hy as [->|Hy]; [lia|auto].
Qed.

Lemma sorted_filter (P : nat -> bool) l : StronglySorted lt l -> StronglySorted lt (filter P l).
Proof.
  induction 1 as [|z l Hs IH Hf]; cbn [filter]; [constructor|].
  destruct (P z); [|exact IH]. constructor; [exact IH|].
  rewrite Forall_forall in *. intros y Hy. apply filter_In in Hy as [Hy _]. auto.
Qed.

Lemma sorted_seq n s : StronglySorted lt (seq s n).
Proof.
  revert s. induction n as [|n IH]; intros s; cbn [seq]; constructor; [apply IH|].
  apply Forall_forall. intros y Hy. apply in_seq in Hy. lia.
Qed.

Lemma In_set_erase x y l : In y (set_erase x l) <-> In y l /\ y <> x.
Proof. unfold set_erase. rewrite filter_In. destruct (Nat.eqb_spec y x); cbn; intuition congruence. Qed.

Lemma In_erase_all xs : forall l y, In y (fold_left (fun s i => set_erase i s) xs l) <-> In y l /\ ~ In y xs.
Proof.
  induction xs as [|x xs IH]; intros l y; cbn [fold_left In]; [tauto|].
  rewrite IH, In_set_erase. intuition congruence.
Qed.

Lemma sorted_erase_all xs : forall l, StronglySorted lt l ->
  StronglySorted lt (fold_left (fun s i => set_erase i s) xs l).
Proof.
  induction xs as [|x xs IH]; intros l Hs; cbn [fold_left]; [exact Hs|]. apply IH. apply sorted_filter. exact Hs.
Qed.

(** ** Hot functions *)
Lemma hot_function_of_spec fs a r : binary_ok fs -> 0 <= a < w64 ->
  hot_function_of fs a = Ok r ->
  forall i, r = Some i <->
    (i < length fs)%nat /\
    fm_addr (nth i fs no_func) <= a /\
    exists b, (b < nents fs i)%nat /\
      a < fm_addr (nth i fs no_func) + be_offset (ent fs i b) + be_size (ent fs i b).
Proof.
  intros [B0 [B1 [B2 [B3 B4]]]] Ha. unfold hot_function_of.
  destruct (upper_bound_spec (fun i => a <? fm_addr (nth i fs no_func)) (length fs)) as [U0 [U1 U2]].
  { intros i j Hij H. destruct (Nat.eq_dec i j) as [->|]; [exact H|].
    specialize (B3 i j ltac:(lia)). lia. }
  destruct (upper_bound (fun i => a <? fm_addr (nth i fs no_func)) (length fs)) as [|it].
  - intros E; injection E as <-. intros i. split; [discriminate|]. intros [Hi [H _]]. specialize (U2 i ltac:(lia)). cbv beta in U2. lia.
  - specialize (U1 it ltac:(lia)) as U1'. cbv beta in U1'.
    destruct (rev (fm_entries (nth it fs no_func))) as [|e l] eqn:Er; [discriminate|].
    assert (El : fm_entries (nth it fs no_func) = rev l ++ [e]).
    { rewrite <- (rev_involutive (fm_entries (nth it fs no_func))), Er. reflexivity. }
    assert (Hn : nents fs it = S (length l)) by (unfold nents; rewrite El, app_length, rev_length; cbn; lia).
    assert (Ee : ent fs it (length l) = e).
    { unfold ent. rewrite El, app_nth2; rewrite rev_length; [|lia]. rewrite Nat.sub_diag. reflexivity. }
    pose proof (B1 it (length l) ltac:(lia) ltac:(lia)) as Be. rewrite Ee in Be.
    specialize (B0 it ltac:(lia)) as B0'.
    rewrite (u64_id (_ + be_offset e)) by lia. rewrite u64_id by lia.
    destruct (fm_addr (nth it fs no_func) + be_offset e + be_size e <=? a) eqn:E; intros E'; injection E' as <-; intros i.
    + split; [discriminate|]. intros [Hi [H1 [b [Hb Hlt]]]]. exfalso.
      destruct (Nat.lt_trichotomy i it) as [H|[->|H]].
      * specialize (B4 i it b ltac:(lia) Hb). lia.
      * destruct (Nat.eq_dec b (length l)) as [->|]; [rewrite Ee in Hlt; lia|].
        specialize (B2 it b (length l) ltac:(lia) ltac:(lia)). rewrite Ee in B2. lia.
      * specialize (U2 i ltac:(lia)). cbv beta in U2. lia.
    + split.
      * intros Ei; injection Ei as <-. split; [lia|]. split; [lia|]. exists (length l). rewrite Ee. split; lia.
      * intros [Hi [H1 [b [Hb Hlt]]]]. f_equal. destruct (Nat.lt_trichotomy i it) as [H|[->|H]]; [|reflexivity|].
        -- specialize (B4 i it b ltac:(lia) Hb). lia.
        -- specialize (U2 i ltac:(lia)). cbv beta in U2. lia.
Qed.

Lemma hot_loop_spec fs : forall addrs acc sel,
  binary_ok fs -> (forall a, In a addrs -> 0 <= a < w64) ->
  hot_loop fs addrs acc = Ok sel ->
  (StronglySorted lt acc -> StronglySorted lt sel) /\
  forall i, In i sel <-> In i acc \/ exists a, In a addrs /\ hot_function_of fs a = Ok (Some i).
Proof.
  induction addrs as [|a addrs IH]; intros acc sel B Ha; cbn [hot_loop].
  - intros E; injection E as <-. split; [auto|]. intros i. split; [auto|]. intros [H|[a [[] _]]]; exact H.
  - destruct (hot_function_of fs a) as [r| |] eqn:E; cbn [obind]; try discriminate.
    intros H. apply IH in H; [|exact B|intros x Hx; apply Ha; right; exact Hx]. destruct H as [H1 H2]. split.
    + intros Hs. apply H1. destruct r; [apply sorted_set_insert|]; exact Hs.
    + intros i. rewrite H2. split.
      * intros [H|[x [Hx Hr]]]; [|right; exists x; cbn [In]; auto].
        destruct r as [k|]; [|auto]. apply In_set_insert in H as [->|H]; [|auto].
        right. exists a. cbn [In]. auto.
      * intros [H|[x [[->|Hx] Hr]]].
        -- left. destruct r; [apply In_set_insert|]; auto.
        -- left. rewrite E in Hr. injection Hr as ->. apply In_set_insert. auto.
        -- right. exists x. auto.
Qed.

Lemma hot_loop_total fs : forall addrs acc,
  (forall i, (i < length fs)%nat -> fm_entries (nth i fs no_func) <> []) ->
  exists sel, hot_loop fs addrs acc = Ok sel.
Proof.
  intros addrs acc Hne. revert acc. induction addrs as [|a addrs IH]; intros acc; cbn [hot_loop]; [eauto|].
  assert (exists r, hot_function_of fs a = Ok r) as [r ->].
  { unfold hot_function_of. pose proof (upper_bound_le (fun i => a <? fm_addr (nth i fs no_func)) (length fs)) as Hle.
    destruct (upper_bound (fun i => a <? fm_addr (nth i fs no_func)) (length fs)) as [|it] eqn:E; [eauto|].
    assert (Hit : (it < length fs)%nat) by lia.
    destruct (rev (fm_entries (nth it fs no_func))) eqn:Er.
    - exfalso. apply (Hne it Hit). rewrite <- (rev_involutive (fm_entries _)), Er. reflexivity.
    - destruct (_ <=? a); eauto. }
  cbn [obind]. apply IH.
Qed.

(** ** Duplicate names *)
Definition idx_of (t : list (name * list nat)) (n : name) : list nat :=
  match aget name_eqb n t with Some l => l | None => [] end.

Lemma idx_push f t n m : idx_of (push_index f t n) m = if name_eqb m n then idx_of t n ++ [f] else idx_of t m.
Proof.
  unfold push_index, idx_of. rewrite aget_aset by apply name_eqb_spec.
  destruct (name_eqb_spec m n) as [->|]; reflexivity.
Qed.

Lemma idx_push_all f m : forall ns t,
  idx_of (fold_left (push_index f) ns t) m = idx_of t m ++ repeat f (count_occ name_eq_dec ns m).
Proof.
  induction ns as [|n ns IH]; intros t; cbn [fold_left count_occ repeat]; [rewrite app_nil_r; reflexivity|].
  rewrite IH, idx_push. destruct (name_eqb_spec m n) as [->|Hne].
  - destruct (name_eq_dec n n) as [_|]; [|congruence]. cbn [repeat]. rewrite <- app_assoc. reflexivity.
  - destruct (name_eq_dec n m); [congruence|reflexivity].
Qed.

Lemma idx_table im m : forall sel t,
  idx_of (fold_left (fun t f => fold_left (push_index f) (aliases_of im f) t) sel t) m =
  idx_of t m ++ flat_map (fun f => repeat f (count_occ name_eq_dec (aliases_of im f) m)) sel.
Proof.
  induction sel as [|f sel IH]; intros t; cbn [fold_left flat_map]; [rewrite app_nil_r; reflexivity|].
  rewrite IH, idx_push_all, <- app_assoc. reflexivity.
Qed.

Definition indices (im : info_map) (sel : list nat) (n : name) : list nat :=
  flat_map (fun f => repeat f (count_occ name_eq_dec (aliases_of im f) n)) sel.

Lemma idx_ntf im sel n : idx_of (name_to_function_index im sel) n = indices im sel n.
Proof. unfold name_to_function_index. rewrite idx_table. reflexivity. Qed.

Lemma keys_NoDup_ntf im sel : NoDup (akeys (name_to_function_index im sel)).
Proof.
  unfold name_to_function_index.
  assert (G : forall ns f t, NoDup (akeys t) -> NoDup (akeys (fold_left (push_index f) ns t))).
  { induction ns as [|n ns IH]; intros f t Ht; cbn [fold_left]; [exact Ht|]. apply IH.
    apply NoDup_akeys_aset; [apply name_eqb_spec|exact Ht]. }
  assert (H : forall l t, NoDup (akeys t) ->
    NoDup (akeys (fold_left (fun t f => fold_left (push_index f) (aliases_of im f) t) l t))).
  { induction l as [|f l IH]; intros t Ht; cbn [fold_left]; [exact Ht|]. apply IH, G, Ht. }
  apply H. constructor.
Qed.

Lemma In_ntf im sel n idx :
  In (n, idx) (name_to_function_index im sel) <->
  In n (akeys (name_to_function_index im sel)) /\ idx = indices im sel n.
Proof.
  rewrite <- (idx_ntf im sel n). unfold idx_of. split.
  - intros H. pose proof (aget_NoDup_In name_eqb name_eqb_spec n idx _ (keys_NoDup_ntf im sel) H) as E. rewrite E.
    split; [apply (in_map fst) in H; exact H|reflexivity].
  - intros [H ->]. destruct (aget name_eqb n (name_to_function_index im sel)) as [l|] eqn:E.
    + apply (aget_In name_eqb name_eqb_spec). exact E.
    + apply aget_None_iff in E; [contradiction|apply name_eqb_spec].
Qed.

Lemma key_of_index im sel n i : In i (indices im sel n) -> In n (akeys (name_to_function_index im sel)).
Proof.
  intros H. rewrite <- idx_ntf in H. unfold idx_of in H.
  destruct (aget name_eqb n (name_to_function_index im sel)) as [l|] eqn:E; [|destruct H].
  apply (aget_In name_eqb name_eqb_spec) in E. apply (in_map fst) in E. exact E.
Qed.

Lemma In_indices im sel n f : In f (indices im sel n) <-> In f sel /\ In n (aliases_of im f).
Proof.
  unfold indices. rewrite in_flat_map. split.
  - intros [g [Hg Hr]]. pose proof (repeat_spec _ _ _ Hr) as ->. split; [exact Hg|].
    apply (count_occ_In name_eq_dec). destruct (count_occ _ _ _); [destruct Hr|lia].
  - intros [Hf Hn]. exists f. split; [exact Hf|]. apply (count_occ_In name_eq_dec) in Hn.
    destruct (count_occ _ _ _); [lia|left; reflexivity].
Qed.

Lemma length_indices im sel n : length (indices im sel n) = uses im sel n.
Proof.
  unfold indices, uses. induction sel as [|f sel IH]; cbn [flat_map]; [reflexivity|].
  rewrite app_length, repeat_length, count_occ_app, IH. reflexivity.
Qed.

(** The functions one name removes. *)
Definition erased (fs : list func_map) (e : name * list nat) : list nat :=
  let '(n, idx) := e in
  if (length idx <=? 1)%nat then []
  else if name_contains n dot_uniq && same_structure fs idx then tl idx else idx.

Lemma filter_dup_step_sel fs e sel dup :
  fst (filter_dup_step fs e (sel, dup)) = fold_left (fun s i => set_erase i s) (erased fs e) sel.
Proof.
  destruct e as [n idx]. cbn [filter_dup_step erased]. destruct (length idx <=? 1)%nat; [reflexivity|].
  destruct (name_contains n dot_uniq && same_structure fs idx); reflexivity.
Qed.

Lemma filter_dup_step_dup fs e sel dup :
  snd (filter_dup_step fs e (sel, dup)) = dup + Z.max 0 (zlen (snd e) - 1).
Proof.
  destruct e as [n idx]. cbn [filter_dup_step snd].
  destruct (Nat.leb_spec (length idx) 1) as [H|H]; cbn [snd].
  - unfold zlen. lia.
  - destruct (name_contains n dot_uniq && same_structure fs idx); cbn [snd]; unfold zlen; lia.
Qed.

Lemma filter_dup_sel fs : forall l sel dup f,
  In f (fst (fold_left (fun s e => filter_dup_step fs e s) l (sel, dup))) <->
  In f sel /\ forall e, In e l -> ~ In f (erased fs e).
Proof.
  induction l as [|e l IH]; intros sel dup f; cbn [fold_left].
  - cbn. intuition.
  - destruct (filter_dup_step fs e (sel, dup)) as [sel' dup'] eqn:E. rewrite IH.
    pose proof (filter_dup_step_sel fs e sel dup) as H. rewrite E in H. cbn [fst] in H. subst sel'.
    rewrite In_erase_all. cbn [In]. split.
    + intros [[H1 H2] H3]. split; [exact H1|]. intros e' [<-|He]; auto.
    + intros [H1 H2]. split; [split; [exact H1|]|]; auto.
Qed.

Lemma filter_dup_sorted fs : forall l sel dup, StronglySorted lt sel ->
  StronglySorted lt (fst (fold_left (fun s e => filter_dup_step fs e s) l (sel, dup))).
Proof.
  induction l as [|e l IH]; intros sel dup Hs; cbn [fold_left]; [exact Hs|].
  destruct (filter_dup_step fs e (sel, dup)) as [sel' dup'] eqn:E. apply IH.
  pose proof (filter_dup_step_sel fs e sel dup) as H. rewrite E in H. cbn [fst] in H. subst sel'.
  apply sorted_erase_all. exact Hs.
Qed.

Fixpoint zsum (l : list Z) : Z := match l with [] => 0 | x :: l' => x + zsum l' end.
Lemma zsum_perm l k : Permutation l k -> zsum l = zsum k.
Proof. induction 1; cbn [zsum]; lia. Qed.

Lemma filter_dup_count fs : forall l sel dup,
  snd (fold_left (fun s e => filter_dup_step fs e s) l (sel, dup)) =
  dup + zsum (map (fun e => Z.max 0 (zlen (snd e) - 1)) l).
Proof.
  induction l as [|e l IH]; intros sel dup; cbn [fold_left map zsum]; [cbn; lia|].
  destruct (filter_dup_step fs e (sel, dup)) as [sel' dup'] eqn:E. rewrite IH.
  pose proof (filter_dup_step_dup fs e sel dup) as H. rewrite E in H. cbn [snd] in H. cbn [snd]. lia.
Qed.

(** What remains: the selected functions no name removes. *)
Lemma FilterDuplicate_In order fs im sel f :
  (forall t, Permutation (order t) t) ->
  In f (fst (FilterDuplicateNameFunctions order fs im sel)) <->
  In f sel /\ forall n, ~ In f (erased fs (n, indices im sel n)).
Proof.
  intros Ho. unfold FilterDuplicateNameFunctions. rewrite filter_dup_sel. split.
  - intros [H1 H2]. split; [exact H1|]. intros n Hn.
    assert (Hk : In n (akeys (name_to_function_index im sel))).
    { apply (key_of_index im sel n f). unfold erased in Hn.
      destruct (length (indices im sel n) <=? 1)%nat; [destruct Hn|].
      destruct (name_contains n dot_uniq && same_structure fs (indices im sel n)); [|exact Hn].
      destruct (indices im sel n); [destruct Hn|right; exact Hn]. }
    apply (H2 (n, indices im sel n)); [|exact Hn].
    apply (Permutation_in _ (Permutation_sym (Ho _))). apply In_ntf. split; [exact Hk|reflexivity].
  - intros [H1 H2]. split; [exact H1|]. intros [n idx] He Hn.
    apply (Permutation_in _ (Ho _)) in He. apply In_ntf in He as [_ ->]. exact (H2 n Hn).
Qed.

Lemma same_entries_iff a : forall b,
  same_entries a b = true <->
  map (fun e => (be_offset e, be_size e)) a = map (fun e => (be_offset e, be_size e)) b.
Proof.
  induction a as [|x a IH]; intros [|y b]; cbn [same_entries map]; try (split; [discriminate|discriminate]).
  - tauto.
  - rewrite !andb_true_iff, IH, !Z.eqb_eq. split.
    + intros [[-> ->] ->]. reflexivity.
    + intros E. injection E as -> -> E. auto.
Qed.

Lemma sorted_unique (a b : list nat) : StronglySorted lt a -> StronglySorted lt b ->
  (forall x, In x a <-> In x b) -> a = b.
Proof.
  intros Ha. revert b. induction Ha as [|x a Ha IH Hf]; intros b Hb E.
  - destruct b as [|y b]; [reflexivity|]. exfalso. apply (proj2 (E y)). left; reflexivity.
  - inversion Hb as [|y b' Hb' Hg E1]; subst.
    + exfalso. apply (proj1 (E x)). left; reflexivity.
    + rewrite Forall_forall in Hf, Hg.
      assert (x = y) as ->.
      { destruct (proj1 (E x) (or_introl eq_refl)) as [->|H1]; [reflexivity|].
        destruct (proj2 (E y) (or_introl eq_refl)) as [->|H2]; [reflexivity|].
        specialize (Hf y H2). specialize (Hg x H1). lia. }
      f_equal. apply IH; [exact Hb'|]. intros z. split; intros Hz.
      * destruct (proj1 (E z) (or_intror Hz)) as [->|H]; [|exact H]. specialize (Hf z Hz). lia.
      * destruct (proj2 (E z) (or_intror Hz)) as [->|H]; [|exact H]. specialize (Hg z Hz). lia.
Qed.
