(** Which entries are bad. *)
From Coq Require Import Sorted Permutation.
From Verif Require Import Base ISort RangeMapModel DwLineModel DwTreeModel DwTreeSpec DwTreeWalk.

Lemma mem_In i l : mem i l = true <-> In i l.
Proof.
  unfold mem. rewrite existsb_exists. split.
  - intros (j & Hj & E). apply Nat.eqb_eq in E. subst j. exact Hj.
  - intros H. exists i. split; [exact H|apply Nat.eqb_refl].
Qed.
Lemma mem_not_In i l : mem i l = false <-> ~ In i l.
Proof. rewrite <- mem_In. destruct (mem i l); split; intros; congruence. Qed.

(** *** Sets of addresses *)
Lemma set_insert_In x y l : In y (set_insert x l) <-> y = x \/ In y l.
Proof.
  induction l as [|z l IH]; cbn [set_insert]; [cbn; intuition congruence|]. destruct (Z.ltb_spec x z); [cbn; intuition congruence|]. destruct (Z.ltb_spec z x).
  - cbn [In]. rewrite IH. clear. intuition congruence.
  - assert (z = x) by lia. subst z. cbn [In]. clear. intuition congruence.
Qed.
Lemma set_insert_sorted x l : StronglySorted Z.lt l -> StronglySorted Z.lt (set_insert x l).
Proof.
  induction l as [|z l IH]; intros S; cbn [set_insert]; [repeat constructor|]. inversion S as [|? ? S1 F]; subst. destruct (Z.ltb_spec x z).
  - constructor; [exact S|]. constructor; [lia|]. eapply Forall_impl; [|exact F]. intros a Ha. lia.
  - destruct (Z.ltb_spec z x); [|exact S]. constructor; [apply IH; exact S1|]. rewrite Forall_forall in F |- *. intros y Hy. apply set_insert_In in Hy. destruct Hy as [->|Hy]; [lia|apply F; exact Hy].
Qed.
Lemma set_from_In x y l : StronglySorted Z.lt l -> (In y (set_from x l) <-> In y l /\ x <= y).
Proof.
  induction 1 as [|z l S IH F]; cbn [set_from]; [cbn; tauto|]. rewrite Forall_forall in F. destruct (Z.ltb_spec z x).
  - rewrite IH. cbn [In]. split; [tauto|]. intros ([->|A] & B); [lia|tauto].
  - split; [|tauto]. intros A. split; [exact A|]. destruct A as [->|A]; [lia|]. specialize (F y A). lia.
Qed.
Lemma set_from_sorted x l : StronglySorted Z.lt l -> StronglySorted Z.lt (set_from x l).
Proof. induction 1 as [|z l S IH F]; cbn [set_from]; [constructor|]. destruct (z <? x); [exact IH|constructor; assumption]. Qed.
Lemma starts_inside_iff starts r : StronglySorted Z.lt starts -> (starts_inside starts r = true <-> exists y, In y starts /\ fst r < y < snd r).
Proof.
  intros S. unfold starts_inside. pose proof (set_from_sorted (fst r) starts S) as S1. pose proof (fun y => set_from_In (fst r) y starts S) as FI. assert (FJ : forall y, In y starts -> fst r < y < snd r -> In y (set_from (fst r) starts)) by (intros y Hy By; apply FI; split; [exact Hy|lia]). destruct (set_from (fst r) starts) as [|z l] eqn:E.
  - split; [discriminate|]. intros (y & Hy & B). destruct (FJ y Hy B).
  - inversion S1 as [|? ? S2 F]; subst. rewrite Forall_forall in F. destruct (Z.eqb_spec z (fst r)) as [->|NE].
    + destruct l as [|w l].
      * split; [discriminate|]. intros (y & Hy & B). destruct (FJ y Hy B) as [A|[]]. lia.
      * inversion S2 as [|? ? S3 F3]; subst. rewrite Forall_forall in F3. rewrite Z.ltb_lt. split.
        -- intros L. exists w. split; [apply (FI w); right; left; reflexivity|]. specialize (F w (or_introl eq_refl)). lia.
        -- intros (y & Hy & B). destruct (FJ y Hy B) as [A|[A|A]]; [lia|lia|]. specialize (F3 y A). lia.
    + rewrite Z.ltb_lt. split.
      * intros L. exists z. assert (A : In z starts /\ fst r <= z) by (apply FI; left; reflexivity). split; [apply A|lia].
      * intros (y & Hy & B). destruct (FJ y Hy B) as [A|A]; [lia|]. specialize (F y A). lia.
Qed.

(** *** The rules *)
Section Rules.
Context (vaddr : Z) (st : state).
Lemma mark_In (g : list nat -> nat -> bool) l : forall bad i, In i (fold_left (fun bad i => if g bad i then i :: bad else bad) l bad) -> In i bad \/ In i l.
Proof.
  induction l as [|x l IH]; intros bad i H; cbn [fold_left] in H; [left; exact H|]. apply IH in H. destruct H as [H|H]; [|right; right; exact H]. destruct (g bad x); [|left; exact H]. destruct H as [->|H]; [right; left; reflexivity|left; exact H].
Qed.
Lemma mark_mono (g : list nat -> nat -> bool) l : forall bad i, In i bad -> In i (fold_left (fun bad i => if g bad i then i :: bad else bad) l bad).
Proof. induction l as [|x l IH]; intros bad i H; cbn [fold_left]; [exact H|]. apply IH. destruct (g bad x); [right; exact H|exact H]. Qed.
Lemma rule1_iff bad i : In i (rule1 vaddr st bad) <-> In i bad \/ (In i (order st) /\ exists r, In r (s_ranges (obj i st)) /\ fst r < vaddr).
Proof.
  unfold rule1. revert bad. induction (order st) as [|x l IH]; intros bad; cbn [fold_left]; [cbn; tauto|]. rewrite IH. clear IH.
  assert (G : existsb (fun r => fst r <? vaddr) (s_ranges (obj x st)) = true <-> exists r, In r (s_ranges (obj x st)) /\ fst r < vaddr).
  { rewrite existsb_exists. split; intros (r & A & B); exists r; (split; [exact A|]); [apply Z.ltb_lt; exact B|apply Z.ltb_lt; exact B]. }
  destruct (existsb (fun r => fst r <? vaddr) (s_ranges (obj x st))).
  - cbn [In]. split; [intros [[->|A]|A]; [right; split; [left; reflexivity|apply G; reflexivity]|tauto|tauto]|]. intros [A|([->|A] & B)]; tauto.
  - cbn [In]. split; [tauto|]. intros [A|([->|A] & B)]; [tauto| |tauto]. apply G in B. discriminate.
Qed.
Lemma inserts_In (l : list (Z * Z)) : forall starts a, In a (fold_left (fun starts r => set_insert (fst r) starts) l starts) <-> In a starts \/ exists r, In r l /\ a = fst r.
Proof.
  induction l as [|r l IH]; intros starts a; cbn [fold_left].
  - split; [tauto|]. intros [A|(r & [] & _)]. exact A.
  - rewrite IH, set_insert_In. split.
    + intros [[->|A]|(q & A & B)]; [right; exists r; split; [left; reflexivity|reflexivity]|tauto|right; exists q; split; [right; exact A|exact B]].
    + intros [A|(q & [->|A] & B)]; [tauto|tauto|right; exists q; tauto].
Qed.
Lemma inserts_sorted (l : list (Z * Z)) : forall starts, StronglySorted Z.lt starts -> StronglySorted Z.lt (fold_left (fun starts r => set_insert (fst r) starts) l starts).
Proof. induction l as [|r l IH]; intros starts S; cbn [fold_left]; [exact S|]. apply IH, set_insert_sorted, S. Qed.
Lemma starts_iff bad a : In a (start_addresses st bad) <-> exists i r, In i (order st) /\ s_inlined (obj i st) = false /\ ~ In i bad /\ In r (s_ranges (obj i st)) /\ a = fst r.
Proof.
  unfold start_addresses.
  assert (G : forall l starts, In a (fold_left (fun starts i => if s_inlined (obj i st) || mem i bad then starts else fold_left (fun starts r => set_insert (fst r) starts) (s_ranges (obj i st)) starts) l starts) <->
    In a starts \/ exists i r, In i l /\ s_inlined (obj i st) = false /\ ~ In i bad /\ In r (s_ranges (obj i st)) /\ a = fst r).
  { induction l as [|x l IH]; intros starts; cbn [fold_left].
    - split; [tauto|]. intros [A|(i & r & [] & _)]. exact A.
    - rewrite IH. clear IH. destruct (s_inlined (obj x st)) eqn:EI; cbn [orb].
      + split; [intros [A|(i & r & A & B)]; [tauto|right; exists i, r; split; [right; exact A|exact B]]|]. intros [A|(i & r & [->|A] & B)]; [tauto|destruct B as (B & _); congruence|right; exists i, r; tauto].
      + destruct (mem x bad) eqn:EM.
        * apply mem_In in EM. split; [intros [A|(i & r & A & B)]; [tauto|right; exists i, r; split; [right; exact A|exact B]]|]. intros [A|(i & r & [->|A] & B)]; [tauto|tauto|right; exists i, r; tauto].
        * apply mem_not_In in EM. rewrite inserts_In. split.
          -- intros [[A|(r & A & B)]|(i & r & A & B)]; [tauto|right; exists x, r; split; [left; reflexivity|tauto]|right; exists i, r; split; [right; exact A|exact B]].
          -- intros [A|(i & r & [->|A] & B)]; [tauto|left; right; exists r; tauto|right; exists i, r; tauto]. }
  rewrite G. cbn [In]. tauto.
Qed.
Lemma starts_sorted bad : StronglySorted Z.lt (start_addresses st bad).
Proof.
  unfold start_addresses. assert (G : forall l starts, StronglySorted Z.lt starts -> StronglySorted Z.lt (fold_left (fun starts i => if s_inlined (obj i st) || mem i bad then starts else fold_left (fun starts r => set_insert (fst r) starts) (s_ranges (obj i st)) starts) l starts)).
  { induction l as [|x l IH]; intros starts S; cbn [fold_left]; [exact S|]. apply IH. destruct (s_inlined (obj x st) || mem x bad); [exact S|apply inserts_sorted, S]. }
  apply G. constructor.
Qed.
Lemma rule2_iff starts bad i : In i (rule2 st starts bad) <-> In i bad \/ (In i (order st) /\ s_inlined (obj i st) = false /\ exists r, In r (s_ranges (obj i st)) /\ starts_inside starts r = true).
Proof.
  unfold rule2. revert bad. induction (order st) as [|x l IH]; intros bad; cbn [fold_left]; [cbn; tauto|]. rewrite IH. clear IH.
  destruct (s_inlined (obj x st)) eqn:EI; cbn [orb].
  - cbn [In]. split; [tauto|]. intros [A|([->|A] & B & C)]; [tauto|congruence|tauto].
  - destruct (mem x bad) eqn:EM.
    + apply mem_In in EM. cbn [In]. split; [tauto|]. intros [A|([->|A] & B & C)]; tauto.
    + assert (G : existsb (starts_inside starts) (s_ranges (obj x st)) = true <-> exists r, In r (s_ranges (obj x st)) /\ starts_inside starts r = true) by apply existsb_exists.
      destruct (existsb (starts_inside starts) (s_ranges (obj x st))).
      * cbn [In]. split; [intros [[->|A]|A]; [right; split; [left; reflexivity|split; [exact EI|apply G; reflexivity]]|tauto|tauto]|]. intros [A|([->|A] & B)]; tauto.
      * cbn [In]. split; [tauto|]. intros [A|([->|A] & B & C)]; [tauto| |tauto]. apply G in C. discriminate.
Qed.

(** rule 3 *)
Lemma zeqb_spec' : forall x y, reflect (x = y) (x =? y). Proof. apply Z.eqb_spec. Qed.
Lemma at_start_insert i a b index j : In j (at_start b (index_insert i a index)) <-> In j (at_start b index) \/ (a = b /\ j = i).
Proof.
  unfold index_insert. set (new := if mem i (at_start a index) then at_start a index else i :: at_start a index).
  assert (N : In j new <-> In j (at_start a index) \/ j = i).
  { unfold new. destruct (mem i (at_start a index)) eqn:M; [apply mem_In in M; split; [tauto|intros [A| ->]; assumption]|cbn [In]; split; intros [A|A]; subst; tauto]. }
  unfold at_start at 1. rewrite (aget_aset Z.eqb Z.eqb_spec). destruct (Z.eqb_spec b a) as [->|NE].
  - rewrite N. clear. intuition.
  - unfold at_start. split; [tauto|]. intros [A|(-> & _)]; [exact A|congruence].
Qed.
Lemma at_start_erase i a b index j : In j (at_start b (index_erase i a index)) <-> In j (at_start b index) /\ ~ (a = b /\ j = i).
Proof.
  unfold index_erase. unfold at_start at 1. rewrite (aget_aset Z.eqb Z.eqb_spec). destruct (Z.eqb_spec b a) as [->|NE].
  - rewrite filter_In, negb_true_iff, Nat.eqb_neq. clear. intuition.
  - unfold at_start. split; [intros A; split; [exact A|intros (-> & _); congruence]|tauto].
Qed.
Lemma inserts_index i (l : list (Z * Z)) : forall index b j, In j (at_start b (fold_left (fun index r => index_insert i (fst r) index) l index)) <-> In j (at_start b index) \/ (j = i /\ exists r, In r l /\ fst r = b).
Proof.
  induction l as [|r l IH]; intros index b j; cbn [fold_left].
  - split; [tauto|]. intros [A|(_ & r & [] & _)]. exact A.
  - rewrite IH, at_start_insert. split.
    + intros [[A|(A & B)]|(A & q & B & C)]; [tauto|right; split; [exact B|exists r; split; [left; reflexivity|exact A]]|right; split; [exact A|exists q; split; [right; exact B|exact C]]].
    + intros [A|(A & q & [->|B] & C)]; [tauto|tauto|right; split; [exact A|exists q; tauto]].
Qed.
Lemma erases_index j0 (l : list (Z * Z)) : forall index b j, In j (at_start b (fold_left (fun index r => index_erase j0 (fst r) index) l index)) -> In j (at_start b index).
Proof. induction l as [|r l IH]; intros index b j H; cbn [fold_left] in H; [exact H|]. apply IH, at_start_erase in H. apply H. Qed.
Lemma erases_keep j0 (l : list (Z * Z)) : forall index b j, j <> j0 -> In j (at_start b index) -> In j (at_start b (fold_left (fun index r => index_erase j0 (fst r) index) l index)).
Proof. induction l as [|r l IH]; intros index b j NE H; cbn [fold_left]; [exact H|]. apply IH; [exact NE|]. apply at_start_erase. split; [exact H|]. intros (_ & E). congruence. Qed.
Lemma erase_all_keep others : forall index b j, ~ In j others -> In j (at_start b index) ->
  In j (at_start b (fold_left (fun index j => fold_left (fun index r => index_erase j (fst r) index) (s_ranges (obj j st)) index) others index)).
Proof. induction others as [|x l IH]; intros index b j N H; cbn [fold_left]; [exact H|]. apply IH; [intros A; apply N; right; exact A|]. apply erases_keep; [intros ->; apply N; left; reflexivity|exact H]. Qed.
Lemma erase_all_sub others : forall index b j,
  In j (at_start b (fold_left (fun index j => fold_left (fun index r => index_erase j (fst r) index) (s_ranges (obj j st)) index) others index)) -> In j (at_start b index).
Proof. induction others as [|x l IH]; intros index b j H; cbn [fold_left] in H; [exact H|]. apply IH in H. apply erases_index in H. exact H. Qed.
Definition others_of (i : nat) (index : list (Z * list nat)) : list nat := concat (map (fun r => at_start (fst r) index) (s_ranges (obj i st))).
Lemma others_In i index j : In j (others_of i index) <-> exists r, In r (s_ranges (obj i st)) /\ In j (at_start (fst r) index).
Proof.
  unfold others_of. rewrite in_concat. split.
  - intros (l & A & B). apply in_map_iff in A. destruct A as (r & <- & A). exists r. tauto.
  - intros (r & A & B). exists (at_start (fst r) index). split; [apply in_map_iff; exists r; tauto|exact B].
Qed.
(** what holds of the index and the bad ones after the entries [done] *)
Definition shared (i j : nat) : Prop := exists r q, In r (s_ranges (obj i st)) /\ In q (s_ranges (obj j st)) /\ fst r = fst q.
Definition inv3 (done : list nat) (acc : list (Z * list nat) * list nat) : Prop :=
  (forall i, In i done -> s_inlined (obj i st) = false -> In i (snd acc) \/ forall r, In r (s_ranges (obj i st)) -> In i (at_start (fst r) (fst acc))) /\
  (forall i j, In i done -> In j done -> i <> j -> s_inlined (obj i st) = false -> s_inlined (obj j st) = false -> shared i j -> In i (snd acc) \/ In j (snd acc)).
Lemma step3 done acc x : inv3 done acc -> inv3 (x :: done) (rule3_step st x acc) /\ incl (snd acc) (snd (rule3_step st x acc)).
Proof.
  destruct acc as [index bad]. intros (I1 & I2). cbn [fst snd] in *. unfold rule3_step. fold (others_of x index).
  assert (SKIP : s_inlined (obj x st) = true \/ s_ranges (obj x st) = [] \/ In x bad -> inv3 (x :: done) (index, bad) /\ incl bad bad).
  { intros SK. split; [|apply incl_refl]. split; cbn [fst snd].
    - intros i [<-|Hi] NI; [|apply I1; assumption]. destruct SK as [SK|[SK|SK]]; [congruence| |left; exact SK]. right. rewrite SK. intros r [].
    - intros i j [<-|Hi] [<-|Hj] NE N1 N2 SH; [congruence| | |apply I2; assumption].
      + destruct SK as [SK|[SK|SK]]; [congruence| |left; exact SK]. destruct SH as (r & q & A & _). rewrite SK in A. destruct A.
      + destruct SK as [SK|[SK|SK]]; [congruence| |right; exact SK]. destruct SH as (r & q & _ & A & _). rewrite SK in A. destruct A. }
  destruct (s_inlined (obj x st)) eqn:EI; cbn [orb]; [apply SKIP; tauto|]. destruct (s_ranges (obj x st)) as [|r0 rs] eqn:ER; cbn [orb]; [apply SKIP; tauto|]. destruct (mem x bad) eqn:EM; cbn [orb]; [apply SKIP; right; right; apply mem_In; exact EM|]. clear SKIP. rewrite <- ER in *. clear r0 rs ER.
  destruct (existsb (fun j => SubprogramContains (obj j st) (obj x st)) (others_of x index)) eqn:EX; cbn [snd].
  - split; [|intros y Hy; right; exact Hy]. split; cbn [fst snd].
    + intros i [<-|Hi] NI; [left; left; reflexivity|]. destruct (I1 i Hi NI) as [A|A]; [left; right; exact A|right; exact A].
    + intros i j [<-|Hi] [<-|Hj] NE N1 N2 SH; [congruence|left; left; reflexivity|right; left; reflexivity|]. destruct (I2 i j Hi Hj NE N1 N2 SH); [left; right; assumption|right; right; assumption].
  - split; [|intros y Hy; apply in_or_app; right; exact Hy].
    assert (OLD : forall i, In i done -> s_inlined (obj i st) = false -> In i (others_of x index ++ bad) \/ (~ In i (others_of x index) /\ forall r, In r (s_ranges (obj i st)) -> In i (at_start (fst r) index))).
    { intros i Hi NI. destruct (I1 i Hi NI) as [A|A]; [left; apply in_or_app; right; exact A|]. destruct (in_dec Nat.eq_dec i (others_of x index)) as [B|B]; [left; apply in_or_app; left; exact B|right; split; assumption]. }
    split; cbn [fst snd].
    + intros i [<-|Hi] NI.
      * right. intros r Hr. apply inserts_index. right. split; [reflexivity|]. exists r. split; [exact Hr|reflexivity].
      * destruct (OLD i Hi NI) as [A|(A & B)]; [left; exact A|]. right. intros r Hr. apply inserts_index. left. apply erase_all_keep; [exact A|apply B; exact Hr].
    + assert (X : forall i, In i done -> s_inlined (obj i st) = false -> shared i x -> In i (others_of x index ++ bad)).
      { intros i Hi NI (r & q & A & B & C). destruct (OLD i Hi NI) as [D|(D & E)]; [exact D|]. exfalso. apply D. apply others_In. exists q. split; [exact B|]. rewrite <- C. apply E. exact A. }
      intros i j [<-|Hi] [<-|Hj] NE N1 N2 SH; [congruence| |left; apply X; assumption|].
      * right. apply X; [exact Hj|exact N2|]. destruct SH as (r & q & A & B & C). exists q, r. auto.
      * destruct (I2 i j Hi Hj NE N1 N2 SH); [left|right]; apply in_or_app; right; assumption.
Qed.
Lemma fold3 l : forall done acc, inv3 done acc -> inv3 (rev l ++ done) (fold_left (fun acc i => rule3_step st i acc) l acc) /\ incl (snd acc) (snd (fold_left (fun acc i => rule3_step st i acc) l acc)).
Proof.
  induction l as [|x l IH]; intros done acc IV; cbn [fold_left rev app]; [split; [exact IV|apply incl_refl]|]. destruct (step3 done acc x IV) as (A & B). destruct (IH _ _ A) as (C & D). split.
  - rewrite <- app_assoc. exact C.
  - eapply incl_tran; eassumption.
Qed.
Lemma rule3_spec bad : incl bad (rule3 st bad) /\
  forall i j, In i (order st) -> In j (order st) -> i <> j -> s_inlined (obj i st) = false -> s_inlined (obj j st) = false -> shared i j -> In i (rule3 st bad) \/ In j (rule3 st bad).
Proof.
  unfold rule3. destruct (fold3 (order st) [] ([], bad)) as ((_ & I2) & B).
  - split; [intros i []|intros i j []].
  - split; [exact B|]. intros i j Hi Hj. apply I2; apply in_or_app; left; apply in_rev; rewrite rev_involutive; assumption.
Qed.
Definition rule4_mark (bad : list nat) (i : nat) : bool := match s_parent (obj i st) with Some p => mem p bad || negb (SubprogramContains (obj p st) (obj i st)) | None => false end.
Lemma rule4_eq bad : rule4 st bad = fold_left (fun bad i => if rule4_mark bad i then i :: bad else bad) (rev (order st)) bad.
Proof.
  unfold rule4. generalize (rev (order st)). intros l. revert bad. induction l as [|x l IH]; intros bad; cbn [fold_left]; [reflexivity|]. rewrite IH. f_equal. unfold rule4_mark. destruct (s_parent (obj x st)); reflexivity.
Qed.
Lemma rule4_mono bad i : In i bad -> In i (rule4 st bad).
Proof. rewrite rule4_eq. apply mark_mono. Qed.

(** Two functions that are kept do not overlap. *)
Theorem kept_disjoint i j : In i (order st) -> In j (order st) -> i <> j -> s_inlined (obj i st) = false -> s_inlined (obj j st) = false ->
  ~ In i (FindBadSubprograms vaddr st) -> ~ In j (FindBadSubprograms vaddr st) ->
  forall r q, In r (s_ranges (obj i st)) -> In q (s_ranges (obj j st)) -> snd r <= fst q \/ snd q <= fst r.
Proof.
  intros Oi Oj NE Ni Nj Ki Kj r q Hr Hq. unfold FindBadSubprograms in Ki, Kj. set (b1 := rule1 vaddr st []) in *. set (b2 := rule2 st (start_addresses st b1) b1) in *.
  assert (K3 : forall x, ~ In x (rule4 st (rule3 st b2)) -> ~ In x (rule3 st b2)) by (intros x A B; apply A, rule4_mono, B). apply K3 in Ki, Kj.
  destruct (rule3_spec b2) as (IN3 & SH). assert (K2 : forall x, ~ In x (rule3 st b2) -> ~ In x b2) by (intros x A B; apply A, IN3, B).
  assert (K1 : forall x, ~ In x b2 -> ~ In x b1) by (intros x A B; apply A; apply rule2_iff; left; exact B).
  destruct (Z_le_gt_dec (snd r) (fst q)) as [|G1]; [left; assumption|]. destruct (Z_le_gt_dec (snd q) (fst r)) as [|G2]; [right; assumption|]. exfalso.
  destruct (Z.lt_trichotomy (fst r) (fst q)) as [L|[E|L]].
  - apply (K2 i Ki). apply rule2_iff. right. split; [exact Oi|]. split; [exact Ni|]. exists r. split; [exact Hr|]. apply starts_inside_iff; [apply starts_sorted|]. exists (fst q). split; [|lia]. apply starts_iff. exists j, q. repeat split; try assumption. apply K1, K2, Kj.
  - destruct (SH i j Oi Oj NE Ni Nj) as [A|A]; [exists r, q; auto|exact (Ki A)|exact (Kj A)].
  - apply (K2 j Kj). apply rule2_iff. right. split; [exact Oj|]. split; [exact Nj|]. exists q. split; [exact Hq|]. apply starts_inside_iff; [apply starts_sorted|]. exists (fst r). split; [|lia]. apply starts_iff. exists i, r. repeat split; try assumption. apply K1, K2, Ki.
Qed.
End Rules.
