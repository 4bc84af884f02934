(** Property C38: fall-through counts inferred from branch frequencies. *)
From Verif Require Import Base StdSearch CfgFreqModel SymbolModel MapperModel MapperSpec MapperProofs MapperProps
  CfgBuildModel CfgBuildSpec CfgBuildProofs CfgBuildProps InferModel InferSpec.
From Coq Require Import Permutation Sorting.Sorted.

Lemma zpair_eqb_spec a b : reflect (a = b) (zpair_eqb a b).
Proof.
  unfold zpair_eqb. destruct a as [a1 a2], b as [b1 b2]. cbn [fst snd].
  destruct (Z.eqb_spec a1 b1), (Z.eqb_spec a2 b2); cbn [andb]; constructor; congruence.
Qed.
Lemma Nat_eqb_reflect : forall a b : nat, reflect (a = b) (Nat.eqb a b).
Proof. intros. destruct (Nat.eqb_spec a b); constructor; assumption. Qed.

(** ** The ordered map *)
Definition wsorted (m : wmap) : Prop := StronglySorted lt (akeys m).
Definition wv (m : wmap) (k : nat) : sw := match aget Nat.eqb k m with Some v => v | None => sw0 end.

Lemma keys_wupd i f m k : In k (akeys (wupd i f m)) <-> k = i \/ In k (akeys m).
Proof.
  induction m as [|[j v] m IH]; cbn [wupd akeys map fst In]; [intuition congruence|].
  destruct (Nat.ltb_spec i j); cbn [map fst In]; [intuition congruence|].
  destruct (Nat.eqb_spec i j); cbn [map fst In]; [subst; intuition congruence|].
  unfold akeys in IH. rewrite IH. intuition congruence.
Qed.
Lemma wsorted_wupd i f m : wsorted m -> wsorted (wupd i f m).
Proof.
  unfold wsorted. induction m as [|[j v] m IH]; cbn [wupd akeys map fst]; intros Hs; [repeat constructor|].
  inversion Hs as [|? ? Hs' Hf]; subst. rewrite Forall_forall in Hf.
  destruct (Nat.ltb_spec i j); cbn [map fst].
  - constructor; [exact Hs|]. apply Forall_forall. intros y [<-|Hy]; [lia|]. specialize (Hf y Hy). lia.
  - destruct (Nat.eqb_spec i j); cbn [map fst]; [exact Hs|].
    constructor; [apply IH; exact Hs'|]. apply Forall_forall. intros y Hy. apply keys_wupd in Hy as [->|Hy]; [lia|auto].
Qed.
Lemma aget_wupd i f m k : wsorted m ->
  aget Nat.eqb k (wupd i f m) = if (k =? i)%nat then Some (f (wv m i)) else aget Nat.eqb k m.
Proof.
  unfold wsorted, wv. induction m as [|[j v] m IH]; cbn [wupd akeys map fst aget]; intros Hs.
  - destruct (k =? i)%nat; reflexivity.
  - inversion Hs as [|? ? Hs' Hf]; subst. rewrite Forall_forall in Hf.
    destruct (Nat.ltb_spec i j) as [Hl|Hl]; cbn [aget].
    + replace (i =? j)%nat with false by lia.
      assert (Hn : aget Nat.eqb i m = None).
      { apply (aget_None_iff Nat.eqb Nat_eqb_reflect). intros Hi. specialize (Hf i Hi). lia. }
      rewrite Hn. reflexivity.
    + destruct (Nat.eqb_spec i j) as [->|Hne]; cbn [aget].
      * destruct (k =? j)%nat; reflexivity.
      * destruct (Nat.eqb_spec k j) as [->|Hkj]; [|apply IH; exact Hs'].
        replace (j =? i)%nat with false by lia. reflexivity.
Qed.
Lemma wv_wupd i f m k : wsorted m -> wv (wupd i f m) k = if (k =? i)%nat then f (wv m i) else wv m k.
Proof. intros Hs. unfold wv at 1. rewrite aget_wupd by exact Hs. destruct (k =? i)%nat; reflexivity. Qed.

Section Infer.
  Context (dbg : bool) (mp : mapper).
  Hypothesis L : layout_ok mp.

  (** ** Weights *)
  Lemma set_outgoing_ok n a w m m' : 0 <= n < 2147483648 -> wsorted m ->
    set_outgoing_weight dbg n mp a w m = Ok m' ->
    wsorted m' /\
    (forall k, In k (akeys m') <-> In k (akeys m) \/ ends_block mp n a k = true) /\
    (forall k, wv m' k = if ends_block mp n a k then SW (sw_in (wv m k)) (sw_out (wv m k)) (Some w) else wv m k).
  Proof.
    intros Hn Hs. unfold set_outgoing_weight, ends_block.
    destruct (FindBb dbg mp a DFrom) as [h| |] eqn:E; cbn [obind]; try discriminate.
    pose proof E as E0. apply block_of_dbg in E. rewrite E.
    destruct h as [i|].
    2: { intros H; injection H as <-. split; [exact Hs|]. split; [intros; intuition discriminate|reflexivity]. }
    pose proof (block_of_range mp L a DFrom i E) as Hi.
    rewrite (end_u64 mp i L Hi). pose proof (proj1 L i Hi) as Hb.
    destruct (C34_found dbg mp a DFrom i L E0) as [_ Hc].
    assert (Ha : 0 <= a < w64) by (unfold contains in Hc; lia).
    assert (EA : (a =? u64 (blk_end mp i - n)) = (a =? blk_end mp i - n)).
    { unfold u64. destruct (Z_le_gt_dec 0 (blk_end mp i - n)).
      - rewrite Z.mod_small by lia. reflexivity.
      - assert (X : (blk_end mp i - n) mod w64 = blk_end mp i - n + w64).
        { rewrite <- (Z.mod_add _ 1) by (unfold w64; lia). rewrite Z.mod_small; unfold w64; lia. }
        rewrite X. unfold contains, w64 in *. lia. }
    rewrite EA. destruct (a =? blk_end mp i - n) eqn:Ee.
    - intros H; injection H as <-. split; [apply wsorted_wupd; exact Hs|]. split.
      + intros k. rewrite keys_wupd. rewrite andb_true_r, Nat.eqb_eq. intuition congruence.
      + intros k. rewrite wv_wupd by exact Hs. rewrite andb_true_r, (Nat.eqb_sym i k).
        destruct (Nat.eqb_spec k i) as [->|]; reflexivity.
    - intros H; injection H as <-. split; [exact Hs|]. split.
      + intros k. rewrite andb_false_r. intuition discriminate.
      + intros k. rewrite andb_false_r. reflexivity.
  Qed.

  Lemma taken_phase n : 0 <= n < 2147483648 -> forall taken m m', wsorted m ->
    ofold (fun (c : counter) m => set_outgoing_weight dbg n mp (fst (fst c)) 0 m) taken m = Ok m' ->
    wsorted m' /\
    (forall k, In k (akeys m') <-> In k (akeys m) \/ existsb (fun c => ends_block mp n (fst (fst c)) k) taken = true) /\
    (forall k, wv m' k = if existsb (fun c => ends_block mp n (fst (fst c)) k) taken
                         then SW (sw_in (wv m k)) (sw_out (wv m k)) (Some 0) else wv m k).
  Proof.
    intros Hn. induction taken as [|c taken IH]; intros m m' Hs; cbn [ofold existsb].
    - intros E; injection E as <-. split; [exact Hs|]. split; [intros; intuition discriminate|reflexivity].
    - destruct (set_outgoing_weight dbg n mp (fst (fst c)) 0 m) as [m1| |] eqn:E1; cbn [obind]; try discriminate.
      destruct (set_outgoing_ok n _ _ m m1 Hn Hs E1) as [S1 [K1 V1]]. intros E.
      destruct (IH m1 m' S1 E) as [S2 [K2 V2]]. split; [exact S2|]. split.
      + intros k. rewrite K2, K1, orb_true_iff. tauto.
      + intros k. rewrite V2, V1. destruct (ends_block mp n (fst (fst c)) k); cbn [orb]; [|reflexivity].
        destruct (existsb _ taken); reflexivity.
  Qed.

  Lemma ends_unique n a a' k : ends_block mp n a k = true -> ends_block mp n a' k = true -> a = a'.
  Proof.
    unfold ends_block. destruct (block_of mp a DFrom) as [i|]; [|discriminate]. destruct (block_of mp a' DFrom) as [j|]; [|discriminate].
    rewrite !andb_true_iff, !Nat.eqb_eq, !Z.eqb_eq. intros [-> ->] [-> ->]. reflexivity.
  Qed.

  Lemma not_taken_phase n : 0 <= n < 2147483648 -> forall nt m m', wsorted m -> NoDup (map fst nt) ->
    ofold (fun (c : Z * Z) m => set_outgoing_weight dbg n mp (fst c) (snd c) m) nt m = Ok m' ->
    wsorted m' /\
    (forall k, In k (akeys m') <-> In k (akeys m) \/ find (fun c => ends_block mp n (fst c) k) nt <> None) /\
    (forall k, wv m' k = match find (fun c => ends_block mp n (fst c) k) nt with
                         | Some c => SW (sw_in (wv m k)) (sw_out (wv m k)) (Some (snd c)) | None => wv m k end).
  Proof.
    intros Hn. induction nt as [|c nt IH]; intros m m' Hs Hd; cbn [ofold find].
    - intros E; injection E as <-. split; [exact Hs|]. split; [intros; intuition congruence|reflexivity].
    - inversion Hd as [|? ? Hx Hd']; subst.
      destruct (set_outgoing_weight dbg n mp (fst c) (snd c) m) as [m1| |] eqn:E1; cbn [obind]; try discriminate.
      destruct (set_outgoing_ok n _ _ m m1 Hn Hs E1) as [S1 [K1 V1]]. intros E.
      destruct (IH m1 m' S1 Hd' E) as [S2 [K2 V2]]. split; [exact S2|].
      assert (U : forall k, ends_block mp n (fst c) k = true -> find (fun c => ends_block mp n (fst c) k) nt = None).
      { intros k Hk. destruct (find (fun c => ends_block mp n (fst c) k) nt) as [d|] eqn:F; [|reflexivity].
        apply find_some in F as [F1 F2]. exfalso. apply Hx. rewrite (ends_unique n _ _ k Hk F2). apply in_map. exact F1. }
      split.
      + intros k. rewrite K2, K1. destruct (ends_block mp n (fst c) k) eqn:Ee.
        * rewrite (U k Ee). intuition congruence.
        * intuition congruence.
      + intros k. rewrite V2, V1. destruct (ends_block mp n (fst c) k) eqn:Ee; [|reflexivity].
        rewrite (U k Ee). reflexivity.
  Qed.

  Lemma branch_phase : forall taken m m', wsorted m ->
    AccumulateBranchWeights dbg mp taken m = Ok m' ->
    wsorted m' /\
    (forall k, In k (akeys m') <-> In k (akeys m) \/
       exists c, In c taken /\ (block_of mp (fst (fst c)) DFrom = Some k \/ block_of mp (snd (fst c)) DTo = Some k)) /\
    (forall k, wv m' k = SW (sw_in (wv m k) + taken_in mp taken k) (sw_out (wv m k) + taken_out mp taken k) (sw_actual (wv m k))).
  Proof.
    unfold AccumulateBranchWeights.
    induction taken as [|[[a b] w] taken IH]; intros m m' Hs; cbn [ofold].
    - intros E; injection E as <-. split; [exact Hs|]. split.
      + intros k. split; [auto|]. intros [H|[c [[] _]]]; exact H.
      + intros k. unfold taken_in, taken_out. cbn [sum_if]. rewrite !Z.add_0_r. destruct (wv m k); reflexivity.
    - destruct (branch_weight_step dbg mp (a, b, w) m) as [m1| |] eqn:E1; cbn [obind]; try discriminate.
      unfold branch_weight_step in E1.
      destruct (FindBb dbg mp a DFrom) as [f| |] eqn:Ef; cbn [obind] in E1; try discriminate.
      destruct (FindBb dbg mp b DTo) as [t| |] eqn:Et; cbn [obind] in E1; try discriminate.
      apply block_of_dbg in Ef. apply block_of_dbg in Et. injection E1 as E1.
      set (m0 := match f with Some i => wupd i (fun v => SW (sw_in v) (sw_out v + w) (sw_actual v)) m | None => m end) in *.
      assert (S0 : wsorted m0) by (unfold m0; destruct f; [apply wsorted_wupd|]; exact Hs).
      assert (V0 : forall k, wv m0 k = SW (sw_in (wv m k)) (sw_out (wv m k) + (if match f with Some j => (j =? k)%nat | None => false end then w else 0)) (sw_actual (wv m k))).
      { intros k. unfold m0. destruct f as [i|].
        - rewrite wv_wupd by exact Hs. rewrite (Nat.eqb_sym i k). destruct (Nat.eqb_spec k i) as [->|]; [reflexivity|].
          rewrite Z.add_0_r. destruct (wv m k); reflexivity.
        - rewrite Z.add_0_r. destruct (wv m k); reflexivity. }
      assert (S1 : wsorted m1) by (rewrite <- E1; destruct t; [apply wsorted_wupd|]; exact S0).
      assert (V1 : forall k, wv m1 k = SW (sw_in (wv m0 k) + (if match t with Some j => (j =? k)%nat | None => false end then w else 0)) (sw_out (wv m0 k)) (sw_actual (wv m0 k))).
      { intros k. rewrite <- E1. destruct t as [i|].
        - rewrite wv_wupd by exact S0. rewrite (Nat.eqb_sym i k). destruct (Nat.eqb_spec k i) as [->|]; [reflexivity|].
          rewrite Z.add_0_r. destruct (wv m0 k); reflexivity.
        - rewrite Z.add_0_r. destruct (wv m0 k); reflexivity. }
      assert (K1 : forall k, In k (akeys m1) <-> In k (akeys m) \/ f = Some k \/ t = Some k).
      { intros k. rewrite <- E1. unfold m0. destruct t, f; rewrite ?keys_wupd; intuition congruence. }
      intros E. destruct (IH m1 m' S1 E) as [S2 [K2 V2]]. split; [exact S2|]. split.
      + intros k. rewrite K2, K1. split.
        * intros [[H|H]|[c [Hc H]]]; [auto| |right; exists c; cbn [In]; auto].
          right. exists (a, b, w). split; [left; reflexivity|]. cbn [fst snd]. rewrite Ef, Et. exact H.
        * intros [H|[c [[<-|Hc] H]]]; [auto| |right; eauto]. cbn [fst snd] in H. rewrite Ef, Et in H. auto.
      + intros k. rewrite V2, V1, V0. unfold taken_in, taken_out. cbn [sum_if fst snd sw_in sw_out sw_actual].
        rewrite Ef, Et. f_equal; lia.
  Qed.

  Lemma weights_ok isz taken nt m :
    match isz with Some n => 0 <= n < 2147483648 | None => True end -> NoDup (map fst nt) ->
    ComputeBlockWeights dbg isz mp taken nt = Ok m ->
    wsorted m /\ (forall k, In k (akeys m) <-> sampled mp isz taken nt k) /\
    (forall k, wv m k = SW (taken_in mp taken k) (taken_out mp taken k) (measured mp isz taken nt k)).
  Proof.
    intros Hn Hd. unfold ComputeBlockWeights, AccumulateActualOutgoingWeights.
    destruct isz as [n|].
    - destruct (ofold _ taken []) as [m1| |] eqn:E1; cbn [obind]; try discriminate.
      destruct (ofold _ nt m1) as [m2| |] eqn:E2; cbn [obind]; try discriminate.
      intros E3. assert (S0 : wsorted []) by constructor.
      destruct (taken_phase n Hn taken [] m1 S0 E1) as [S1 [K1 V1]].
      destruct (not_taken_phase n Hn nt m1 m2 S1 Hd E2) as [S2 [K2 V2]].
      destruct (branch_phase taken m2 m S2 E3) as [S3 [K3 V3]].
      assert (VV : forall k, wv m2 k = SW 0 0 (measured mp (Some n) taken nt k)).
      { intros k. rewrite V2, V1. change (wv [] k) with sw0. unfold measured.
        destruct (find _ nt) as [c|]; destruct (existsb _ taken); reflexivity. }
      split; [exact S3|]. split.
      + intros k. rewrite K3, K2, K1. unfold sampled, measured. cbn [akeys map In].
        destruct (find _ nt) as [c|]; destruct (existsb _ taken); intuition congruence.
      + intros k. rewrite V3, VV. reflexivity.
    - cbn [obind]. intros E3. assert (S0 : wsorted []) by constructor.
      destruct (branch_phase taken [] m S0 E3) as [S3 [K3 V3]]. split; [exact S3|]. split.
      + intros k. rewrite K3. unfold sampled, measured. cbn [akeys map In]. intuition congruence.
      + intros k. rewrite V3. reflexivity.
  Qed.

  (** ** The loop *)
  Definition carried (prev : option (nat * Z)) (k : nat) : Z :=
    match prev with Some (p, w) => if (0 <? w) && CanFallThrough mp p k then w else 0 | None => 0 end.
  Fixpoint flows (prev : option (nat * Z)) (m : wmap) : list (nat * Z) :=
    match m with
    | [] => []
    | (i, v) :: m' =>
        let fw := match sw_actual v with Some w => w | None => sw_in v + carried prev i - sw_out v end in
        (i, fw) :: flows (Some (i, fw)) m'
    end.
  Definition contr (A B : Z) (p : nat * Z) (next : option nat) : Z :=
    match range_end mp (fst p) next with
    | Some e => if (0 <? snd p) && (blk_start mp (fst p) =? A) && (blk_start mp e =? B) then snd p else 0
    | None => 0
    end.
  Fixpoint rs (A B : Z) (l : list (nat * Z)) : Z :=
    match l with
    | [] => 0
    | p :: l' => contr A B p (match l' with [] => None | q :: _ => Some (fst q) end) + rs A B l'
    end.
  Definition live (prev : option (nat * Z)) : option (nat * Z) :=
    match prev with Some (p, w) => if 0 <? w then Some (p, w) else None | None => None end.

  Lemma range_end_range k next e : (k < blk_count mp)%nat -> (forall n, next = Some n -> (k < n < blk_count mp)%nat) ->
    range_end mp k next = Some e -> (k < e < blk_count mp)%nat /\ CanFallThrough mp k e = true.
  Proof.
    intros Hk Hn. unfold range_end. destruct next as [n|].
    - destruct (CanFallThrough mp k n) eqn:E.
      + intros H; injection H as <-. split; [auto|exact E].
      + destruct (Nat.ltb_spec (S k) (blk_count mp)); cbn [andb]; [|discriminate].
        destruct (CanFallThrough mp k (S k)) eqn:E2; [|discriminate]. intros X; injection X as <-. split; [lia|exact E2].
    - destruct (Nat.ltb_spec (S k) (blk_count mp)); cbn [andb]; [|discriminate].
      destruct (CanFallThrough mp k (S k)) eqn:E2; [|discriminate]. intros X; injection X as <-. split; [lia|exact E2].
  Qed.

  Lemma Handle_count f w next to acc A B :
    (f < blk_count mp)%nat -> (forall n, next = Some n -> (f < n < blk_count mp)%nat) -> 0 < w ->
    to = match next with Some n => n | None => S f end ->
    count_of (HandleFallthrough mp f to w acc) A B = count_of acc A B + contr A B (f, w) next.
  Proof.
    intros Hf Hn Hw ->. unfold HandleFallthrough, contr. cbn [fst snd].
    assert (EE : FindFallthroughEndBlock mp f (match next with Some n => n | None => S f end) = range_end mp f next).
    { unfold FindFallthroughEndBlock, range_end. fold (blk_count mp). destruct next as [n|].
      - specialize (Hn n eq_refl). replace ((n <=? f)%nat || (blk_count mp <=? n)%nat) with false by lia.
        destruct (CanFallThrough mp f n); reflexivity.
      - destruct (Nat.ltb_spec (S f) (blk_count mp)).
        + replace ((S f <=? f)%nat || (blk_count mp <=? S f)%nat) with false by lia.
          destruct (CanFallThrough mp f (S f)); reflexivity.
        + replace ((S f <=? f)%nat || (blk_count mp <=? S f)%nat) with true by lia. reflexivity. }
    rewrite EE. destruct (range_end mp f next) as [e|] eqn:Er; [|lia].
    destruct (range_end_range f next e Hf Hn Er) as [He _].
    rewrite !GetAddress_start by (auto; lia). replace (0 <? w) with true by lia. cbn [andb].
    assert (EK : forall m kk v, count_of (aset zpair_eqb kk v m) A B = if zpair_eqb (A, B) kk then v else count_of m A B).
    { intros m kk v. unfold count_of. rewrite (aget_aset zpair_eqb zpair_eqb_spec). destruct (zpair_eqb (A, B) kk); reflexivity. }
    rewrite EK. destruct (zpair_eqb_spec (A, B) (blk_start mp f, blk_start mp e)) as [E|E].
    - injection E as -> ->. rewrite !Z.eqb_refl. cbn [andb]. reflexivity.
    - destruct (Z.eqb_spec (blk_start mp f) A); destruct (Z.eqb_spec (blk_start mp e) B); cbn [andb]; try lia. congruence.
  Qed.

  Lemma contr_neg A B p w n : w <= 0 -> contr A B (p, w) n = 0.
  Proof.
    intros Hw. unfold contr. cbn [fst snd]. replace (0 <? w) with false by lia. cbn [andb].
    destruct (range_end mp p n); reflexivity.
  Qed.
  Lemma infer_loop_count A B : forall m prev acc,
    wsorted m -> (forall k, In k (akeys m) -> (k < blk_count mp)%nat) ->
    (forall p w, prev = Some (p, w) -> (p < blk_count mp)%nat /\ forall k, In k (akeys m) -> (p < k)%nat) ->
    count_of (infer_loop mp (live prev) m acc) A B =
    count_of acc A B +
    (match prev with
     | Some p => contr A B p (match m with [] => None | (i, _) :: _ => Some i end)
     | None => 0
     end) + rs A B (flows prev m).
  Proof.
    induction m as [|[i v] m IH]; intros prev acc Hs Hr Hp; cbn [infer_loop flows rs].
    - destruct prev as [[p w]|]; cbn [live]; [|lia]. destruct (Hp p w eq_refl) as [Hp1 _].
      destruct (Z.ltb_spec 0 w) as [Hw|Hw].
      + rewrite (Handle_count p w None (S p)); auto; [lia|discriminate].
      + rewrite (contr_neg A B p w None Hw). lia.
    - inversion Hs as [|? ? Hs' Hf]; subst. rewrite Forall_forall in Hf.
      assert (Hi : (i < blk_count mp)%nat) by (apply Hr; left; reflexivity).
      assert (Hr' : forall k, In k (akeys m) -> (k < blk_count mp)%nat) by (intros; apply Hr; right; assumption).
      set (fw := match sw_actual v with Some w => w | None => sw_in v + carried prev i - sw_out v end).
      assert (Hnext : forall p w, Some (i, fw) = Some (p, w) -> (p < blk_count mp)%nat /\ forall k, In k (akeys m) -> (p < k)%nat).
      { intros p w Epw; injection Epw as <- <-. split; [exact Hi|exact Hf]. }
      assert (Hhd : match flows (Some (i, fw)) m with [] => None | q :: _ => Some (fst q) end =
                    match m with [] => None | (i0, _) :: _ => Some i0 end) by (destruct m as [|[? ?] ?]; reflexivity).
      rewrite Hhd.
      destruct prev as [[p w]|]; cbn [live carried] in *.
      + destruct (Hp p w eq_refl) as [Hp1 Hp2]. specialize (Hp2 i (or_introl eq_refl)).
        destruct (Z.ltb_spec 0 w) as [Hw|Hw]; cbn [andb] in *.
        * assert (Efw : InferFallthroughWeight (if CanFallThrough mp p i then SW (sw_in v + w) (sw_out v) (sw_actual v) else v) = fw).
          { unfold fw, InferFallthroughWeight. destruct (CanFallThrough mp p i); cbn [sw_in sw_out sw_actual]; destruct (sw_actual v); try reflexivity. lia. }
          rewrite Efw. change (if 0 <? fw then Some (i, fw) else None) with (live (Some (i, fw))).
          rewrite (IH (Some (i, fw)) _ Hs' Hr' Hnext).
          rewrite (Handle_count p w (Some i) i); [lia|exact Hp1| |lia|reflexivity].
          intros n En; injection En as <-. lia.
        * assert (Efw : InferFallthroughWeight v = fw) by (unfold fw, InferFallthroughWeight; destruct (sw_actual v); [reflexivity|lia]).
          rewrite Efw. change (if 0 <? fw then Some (i, fw) else None) with (live (Some (i, fw))).
          rewrite (IH (Some (i, fw)) _ Hs' Hr' Hnext).
          rewrite (contr_neg A B p w (Some i) Hw). lia.
      + assert (Efw : InferFallthroughWeight v = fw) by (unfold fw, InferFallthroughWeight; destruct (sw_actual v); [reflexivity|lia]).
        rewrite Efw. change (if 0 <? fw then Some (i, fw) else None) with (live (Some (i, fw))).
        rewrite (IH (Some (i, fw)) _ Hs' Hr' Hnext). lia.
  Qed.

  Lemma flows_keys m : forall prev, map fst (flows prev m) = akeys m.
  Proof. induction m as [|[i v] m IH]; intros prev; cbn [flows map fst akeys]; [reflexivity|]. rewrite IH. reflexivity. Qed.

  Lemma flows_nth m : forall prev i k f, nth_error (flows prev m) i = Some (k, f) ->
    exists v, nth_error m i = Some (k, v) /\
      f = match sw_actual v with
          | Some w => w
          | None => sw_in v + carried (match i with O => prev | S i' => nth_error (flows prev m) i' end) k - sw_out v
          end.
  Proof.
    induction m as [|[j v] m IH]; intros prev i k f; cbn [flows].
    - destruct i; discriminate.
    - destruct i as [|i]; cbn [nth_error].
      + intros E; injection E as <- <-. exists v. split; reflexivity.
      + intros E. apply IH in E as [v' [E1 E2]]. exists v'. split; [exact E1|]. rewrite E2.
        destruct i as [|i]; reflexivity.
  Qed.

  Definition ftf (l : list (nat * Z)) (k : nat) : Z := match aget Nat.eqb k l with Some w => w | None => 0 end.
  Lemma ftf_nth l i k w : NoDup (map fst l) -> nth_error l i = Some (k, w) -> ftf l k = w.
  Proof.
    intros Hd E. apply nth_error_In in E. unfold ftf.
    rewrite (aget_NoDup_In Nat.eqb Nat_eqb_reflect k w l Hd E). reflexivity.
  Qed.
  Lemma rs_range_sum A B (g : nat -> Z) l : (forall k w, In (k, w) l -> g k = w) ->
    rs A B l = range_sum mp g A B (map fst l).
  Proof.
    induction l as [|[k w] l IH]; intros Hg; cbn [rs range_sum map fst]; [reflexivity|].
    rewrite IH by (intros; apply Hg; right; assumption). f_equal.
    unfold contr. cbn [fst snd]. rewrite (Hg k w (or_introl eq_refl)). destruct l as [|[? ?] ?]; reflexivity.
  Qed.
End Infer.

Lemma sorted_NoDup (l : list nat) : StronglySorted lt l -> NoDup l.
Proof.
  induction 1 as [|x l Hs IH Hf]; constructor; [|exact IH].
  intros Hi. rewrite Forall_forall in Hf. specialize (Hf x Hi). lia.
Qed.

Lemma sampled_range mp isz taken nt k : layout_ok mp -> sampled mp isz taken nt k -> (k < blk_count mp)%nat.
Proof.
  intros L [[c [_ [H|H]]]|H]; [eapply block_of_range; eauto..|].
  unfold measured in H. destruct isz as [n|]; [|congruence].
  assert (G : forall a, ends_block mp n a k = true -> (k < blk_count mp)%nat).
  { intros a Ha. unfold ends_block in Ha. destruct (block_of mp a DFrom) as [j|] eqn:E; [|discriminate].
    apply andb_true_iff in Ha as [Ha _]. apply Nat.eqb_eq in Ha. subst. eapply block_of_range; eauto. }
  destruct (find _ nt) as [c|] eqn:F.
  - apply find_some in F as [_ F]. eauto.
  - destruct (existsb _ taken) eqn:X; [|congruence]. apply existsb_exists in X as [c [_ X]]. eauto.
Qed.

(** The inferred count of every range is the sum of the fall-through weights
    that solve the flow equations: measured at the end of the block where
    possible, otherwise what flows in minus what branches out; carried on to the
    next sampled block when that is reachable by falling through. *)
Theorem C38_flow dbg isz mp taken nt res :
  layout_ok mp ->
  match isz with Some n => 0 <= n < 2147483648 | None => True end ->
  NoDup (map fst nt) ->
  InferFallthroughs dbg isz mp taken nt = Ok res ->
  exists ks ft, flow_equations mp isz taken nt ks ft /\
    forall A B, count_of res A B = range_sum mp ft A B ks.
Proof.
  intros L Hn Hd. unfold InferFallthroughs.
  destruct (ComputeBlockWeights dbg isz mp taken nt) as [m| |] eqn:E; cbn [obind]; try discriminate.
  intros H; injection H as <-.
  destruct (weights_ok dbg mp L isz taken nt m Hn Hd E) as [Sm [Km Vm]].
  assert (ND : NoDup (map fst (flows mp None m))) by (rewrite flows_keys; apply sorted_NoDup; exact Sm).
  exists (akeys m), (ftf (flows mp None m)).
  split.
  - split; [exact Sm|]. split; [exact Km|]. intros i k Hk. cbv zeta.
    rewrite <- (flows_keys mp m None) in Hk.
    assert (Hf : exists w, nth_error (flows mp None m) i = Some (k, w)).
    { rewrite nth_error_map in Hk. destruct (nth_error (flows mp None m) i) as [[k' w]|]; [|discriminate].
      cbn in Hk. injection Hk as ->. eauto. }
    destruct Hf as [w Hf]. rewrite (ftf_nth _ i k w ND Hf).
    destruct (flows_nth mp m None i k w Hf) as [v [Hv ->]].
    assert (Ev : v = wv m k).
    { unfold wv. apply nth_error_In in Hv.
      rewrite (aget_NoDup_In Nat.eqb Nat_eqb_reflect k v m (sorted_NoDup _ Sm) Hv). reflexivity. }
    rewrite Ev, Vm. cbn [sw_in sw_out sw_actual]. destruct (measured mp isz taken nt k); [reflexivity|].
    f_equal. f_equal. destruct i as [|i]; [reflexivity|].
    assert (Hp : exists q, nth_error (flows mp None m) i = Some q).
    { destruct (nth_error (flows mp None m) i) eqn:X; [eauto|]. exfalso. apply nth_error_None in X.
      assert (nth_error (flows mp None m) (S i) <> None) by congruence. apply nth_error_Some in H. lia. }
    destruct Hp as [[p u] Hp]. rewrite Hp. unfold carried.
    assert (Ep : nth i (akeys m) 0%nat = p).
    { rewrite <- (flows_keys mp m None). apply nth_error_nth. rewrite nth_error_map, Hp. reflexivity. }
    rewrite Ep, (ftf_nth _ i p u ND Hp). reflexivity.
  - intros A B.
    change (infer_loop mp None m []) with (infer_loop mp (live None) m []).
    rewrite (infer_loop_count mp L A B m None [] Sm).
    + change (count_of [] A B) with 0. rewrite <- (flows_keys mp m None).
      rewrite (rs_range_sum mp A B (ftf (flows mp None m))); [lia|].
      intros k w Hin. unfold ftf. rewrite (aget_NoDup_In Nat.eqb Nat_eqb_reflect k w _ ND Hin). reflexivity.
    + intros k Hk. apply (sampled_range mp isz taken nt); [exact L|]. apply Km. exact Hk.
    + intros p w X; discriminate.
Qed.
Print Assumptions C38_flow.

(** Every recorded range is a valid fall-through path inside one function, and
    its count is positive. *)
Theorem C38_ranges_valid dbg isz mp taken nt res A B w :
  layout_ok mp ->
  match isz with Some n => 0 <= n < 2147483648 | None => True end ->
  NoDup (map fst nt) ->
  InferFallthroughs dbg isz mp taken nt = Ok res ->
  In ((A, B), w) res ->
  exists k e, (k < e < blk_count mp)%nat /\ blk_start mp k = A /\ blk_start mp e = B /\
    blk_func mp k = blk_func mp e /\ fallthrough_path mp k e /\ 0 < w.
Proof.
  intros L Hn Hd. unfold InferFallthroughs.
  destruct (ComputeBlockWeights dbg isz mp taken nt) as [m| |] eqn:E; cbn [obind]; try discriminate.
  intros H; injection H as <-.
  destruct (weights_ok dbg mp L isz taken nt m Hn Hd E) as [Sm [Km _]].
  assert (Hr : forall k, In k (akeys m) -> (k < blk_count mp)%nat).
  { intros k Hk. apply (sampled_range mp isz taken nt); [exact L|]. apply Km. exact Hk. }
  set (good := fun acc : list counter => forall A B w, In ((A, B), w) acc ->
    exists k e, (k < e < blk_count mp)%nat /\ blk_start mp k = A /\ blk_start mp e = B /\
      blk_func mp k = blk_func mp e /\ fallthrough_path mp k e /\ 0 < w).
  assert (GH : forall f to w0 acc, (f < blk_count mp)%nat -> 0 < w0 -> good acc -> good (HandleFallthrough mp f to w0 acc)).
  { intros f to w0 acc Hf Hw Ha. unfold HandleFallthrough.
    destruct (FindFallthroughEndBlock mp f to) as [e|] eqn:Ee; [|exact Ha].
    assert (He : (f < e < blk_count mp)%nat /\ CanFallThrough mp f e = true).
    { unfold FindFallthroughEndBlock in Ee. fold (blk_count mp) in Ee.
      destruct (Nat.leb_spec to f); cbn [orb] in Ee; [discriminate|].
      destruct (Nat.leb_spec (blk_count mp) to); [discriminate|].
      destruct (CanFallThrough mp f to) eqn:C1; [injection Ee as <-; split; [lia|exact C1]|].
      destruct (Nat.ltb_spec (S f) (blk_count mp)); cbn [andb] in Ee; [|discriminate].
      destruct (CanFallThrough mp f (S f)) eqn:C2; [|discriminate]. injection Ee as <-. split; [lia|exact C2]. }
    destruct He as [He1 He2]. rewrite !GetAddress_start by (auto; lia).
    intros A0 B0 v Hv. set (kk := (blk_start mp f, blk_start mp e)) in *.
    assert (Hpath := proj1 (C35_fallthrough mp f e) He2).
    assert (Hfun : blk_func mp f = blk_func mp e) by (destruct Hpath as [X|[X _]]; [lia|exact X]).
    assert (Hold : 0 <= match aget zpair_eqb kk acc with Some v0 => v0 | None => 0 end).
    { destruct (aget zpair_eqb kk acc) as [v0|] eqn:Ev; [|lia].
      apply (aget_In zpair_eqb zpair_eqb_spec) in Ev. destruct (Ha _ _ _ Ev) as [? [? [_ [_ [_ [_ [_ X]]]]]]]. lia. }
    assert (Hc : In ((A0, B0), v) acc \/ ((A0, B0) = kk /\ 0 < v)).
    { revert Hv Hold. generalize (match aget zpair_eqb kk acc with Some v0 => v0 | None => 0 end). intros old Hv Hold.
      clear - Hv Hold Hw. induction acc as [|[q u] acc IH]; cbn [aset] in Hv.
      - destruct Hv as [X|[]]. right. inversion X. split; [reflexivity|lia].
      - destruct (zpair_eqb_spec kk q) as [->|].
        + destruct Hv as [X|Hv]; [right; inversion X; split; [reflexivity|lia]|left; right; exact Hv].
        + destruct Hv as [X|Hv]; [left; left; exact X|]. destruct (IH Hv) as [X|X]; [left; right; exact X|right; exact X]. }
    destruct Hc as [Hc|[Ek Hv0]]; [exact (Ha _ _ _ Hc)|]. unfold kk in Ek. inversion Ek. exists f, e. repeat split; auto; lia. }
  assert (G : forall m pend acc, (forall k, In k (akeys m) -> (k < blk_count mp)%nat) ->
    (forall p w, pend = Some (p, w) -> (p < blk_count mp)%nat /\ 0 < w) -> good acc -> good (infer_loop mp pend m acc)).
  { clear - GH. induction m as [|[i v] m IH]; intros pend acc Hr Hp Ha; cbn [infer_loop].
    - destruct pend as [[p w]|]; [|exact Ha]. destruct (Hp p w eq_refl). apply GH; auto.
    - assert (Hi : (i < blk_count mp)%nat) by (apply Hr; left; reflexivity).
      assert (Hr' : forall k, In k (akeys m) -> (k < blk_count mp)%nat) by (intros; apply Hr; right; assumption).
      assert (HL : forall fw p w, (if 0 <? fw then Some (i, fw) else None) = Some (p, w) -> (p < blk_count mp)%nat /\ 0 < w).
      { intros fw p w X. destruct (Z.ltb_spec 0 fw); [|discriminate]. injection X as <- <-. auto. }
      destruct pend as [[p w]|].
      + destruct (Hp p w eq_refl). apply IH; auto. intros; eapply HL; eauto.
      + apply IH; auto. intros; eapply HL; eauto. }
  intros Hin. refine (G m None [] Hr _ _ A B w Hin); [intros; discriminate|intros ? ? ? []].
Qed.
Print Assumptions C38_ranges_valid.

(** Release builds never fail. *)
Theorem C38_total isz mp taken nt : exists res, InferFallthroughs false isz mp taken nt = Ok res.
Proof.
  unfold InferFallthroughs, ComputeBlockWeights.
  assert (F : forall a dir, exists r, FindBb false mp a dir = Ok r) by (intros; apply CfgBuildTotal.FindBb_release).
  assert (O : forall (A S : Type) (step : A -> S -> outcome S) l s,
            (forall a s, exists s', step a s = Ok s') -> exists s', ofold step l s = Ok s').
  { intros A S step l. induction l as [|x l IH]; intros s Hs; cbn [ofold]; [eauto|].
    destruct (Hs x s) as [s1 ->]. cbn [obind]. auto. }
  assert (SO : forall n a w m, exists m', set_outgoing_weight false n mp a w m = Ok m').
  { intros n a w m. unfold set_outgoing_weight. destruct (F a DFrom) as [r ->]. cbn [obind]. destruct r; [|eauto].
    destruct (_ =? _); eauto. }
  assert (AA : exists m, AccumulateActualOutgoingWeights false isz mp taken nt [] = Ok m).
  { unfold AccumulateActualOutgoingWeights. destruct isz as [n|]; [|eauto].
    destruct (O _ _ (fun (c : counter) m => set_outgoing_weight false n mp (fst (fst c)) 0 m) taken []) as [m1 ->]; [intros; apply SO|].
    cbn [obind]. apply O. intros; apply SO. }
  destruct AA as [m ->]. cbn [obind]. unfold AccumulateBranchWeights.
  destruct (O _ _ (branch_weight_step false mp) taken m) as [m2 ->].
  - intros [[a b] w] s. unfold branch_weight_step. destruct (F a DFrom) as [r1 ->]. cbn [obind].
    destruct (F b DTo) as [r2 ->]. cbn [obind]. eauto.
  - cbn [obind]. eauto.
Qed.
Print Assumptions C38_total.

(** The endpoints reported for choosing hot functions are exactly the
    addresses occurring in the profile. *)
Theorem C38_endpoints taken nt a :
  In a (GetBranchEndpointAddresses taken nt) <->
  (exists c, In c taken /\ (fst (fst c) = a \/ snd (fst c) = a)) \/ exists c, In c nt /\ fst c = a.
Proof.
  unfold GetBranchEndpointAddresses. rewrite in_app_iff, in_flat_map, in_map_iff. split.
  - intros [[c [Hc [H|[H|[]]]]]|[c [E Hc]]]; [left; exists c; auto..|right; eauto].
  - intros [[c [Hc [H|H]]]|[c [Hc E]]].
    + left. exists c. split; [exact Hc|]. left; exact H.
    + left. exists c. split; [exact Hc|]. right; left; exact H.
    + right. eauto.
Qed.
Print Assumptions C38_endpoints.

(** f: blocks at 16, 20 and 24 (the last does not fall through), g: block at
    32; 4-byte instructions.  Block 0 is entered 10 times and its final branch
    is taken 4 and not taken 7 times (the two kinds of counters disagree); block
    1 is entered 3 times from g and its end is unmeasured. *)
Definition inf_taken : list counter := [((100, 16), 10); ((16, 24), 4); ((36, 20), 3); ((24, 32), 2)].
Definition inf_nt : list (Z * Z) := [(16, 7)].
Example C38_nonvacuous :
  layout_ok cb_mapper /\ NoDup (map fst inf_nt) /\
  InferFallthroughs true (Some 4) cb_mapper inf_taken inf_nt = Ok [((16, 20), 7); ((20, 24), 10)] /\
  InferFallthroughs true None cb_mapper inf_taken inf_nt = Ok [((16, 20), 6); ((20, 24), 9)].
Proof.
  split; [exact (proj1 (builder_layout _ _ cb_builder_ok))|].
  split; [repeat constructor; intros []|]. split; [vm_compute; reflexivity|]. vm_compute. reflexivity.
Qed.

(** Empty blocks: block 1 is empty at the address of block 2.  10 branches go
    there, 7 come in by falling through from block 0, so 17 leave block 1 by
    falling through.  But the recorded end of the range from block 0 is an
    address, which the CFG builder maps to block 2, and the edge from block 1
    to block 2 is given 24. *)
Definition emp_mapper : mapper :=
  Mapper [0%nat] [FuncMap 16 [BBEntry 0 4 true false; BBEntry 4 0 true false; BBEntry 4 4 false true]]
    [BbHandle 0 0; BbHandle 0 1; BbHandle 0 2].
Definition emp_taken : list counter := [((100, 16), 7); ((100, 20), 10); ((20, 200), 17)].
Theorem C38_empty_block_double_count_refuted :
  InferFallthroughs false None emp_mapper emp_taken [] = Ok [((16, 20), 7); ((20, 20), 17)] /\
  exists st, CreateEdges false [] (fun _ => true) emp_mapper (fun t => t) (fun _ _ _ _ => false) emp_taken
               [((16, 20), 7); ((20, 20), 17)] = Ok (Some st) /\
    edge_weight st (BbHandle 0 0, BbHandle 0 1) = 17 /\ edge_weight st (BbHandle 0 1, BbHandle 0 2) = 24.
Proof.
  split; [vm_compute; reflexivity|]. eexists. split; [vm_compute; reflexivity|].
  split; vm_compute; reflexivity.
Qed.
Print Assumptions C38_empty_block_double_count_refuted.
