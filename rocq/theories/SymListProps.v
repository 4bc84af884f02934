(** C43: profile symbol list coverage. *)
From Verif Require Import Base ISort SymbolModel SymListModel.
From Coq Require Import Reals Lra.
From Flocq Require Import Core Relative.
Open Scope Z_scope.

(** Specification vocabulary: total size of a set of symbols; the symbols at
    least as big / strictly bigger than a given size. *)
Definition sum_sizes (l : list (name * Z)) : Z := fold_right (fun e a => snd e + a) 0 l.
Definition at_least (c : Z) (l : list (name * Z)) := filter (fun e => c <=? snd e) l.
Definition bigger (c : Z) (l : list (name * Z)) := filter (fun e => c <? snd e) l.
Definition zsum (l : list Z) : Z := fold_right Z.add 0 l.

(* ---- doubles ---- *)
Open Scope R_scope.
Lemma rnd64_le x y : x <= y -> rnd64 x <= rnd64 y.
Proof. intros H. apply round_le; [apply FLT_exp_valid; reflexivity|apply valid_rnd_N|exact H]. Qed.
Lemma rnd64_int n : (Z.abs n < 2 ^ 53)%Z -> rnd64 (IZR n) = IZR n.
Proof.
  intros H. apply round_generic; [apply valid_rnd_N|]. apply generic_format_FLT. exists (Float radix2 n 0).
  - unfold F2R. cbn. lra.
  - exact H.
  - cbn. lia.
Qed.
Lemma threshold_range total ratio : (0 <= total < 2 ^ 53)%Z -> 0 <= ratio <= 1 ->
  (0 <= total_threshold total ratio <= total)%Z.
Proof.
  intros Ht Hr. unfold total_threshold. rewrite (rnd64_int total) by lia.
  assert (0 <= IZR total) by (apply (IZR_le 0); lia).
  assert (L : 0 <= rnd64 (IZR total * ratio)).
  { rewrite <- (rnd64_int 0) by reflexivity. apply rnd64_le. nra. }
  assert (U : rnd64 (IZR total * ratio) <= IZR total).
  { rewrite <- (rnd64_int total) at 2 by lia. apply rnd64_le. nra. }
  rewrite Ztrunc_floor by exact L. split.
  - apply Zfloor_lub. exact L.
  - apply Z.le_trans with (Zfloor (IZR total)); [apply Zfloor_le; exact U|]. rewrite Zfloor_IZR. lia.
Qed.
Lemma threshold_one total : (0 <= total < 2 ^ 53)%Z -> total_threshold total 1 = total.
Proof.
  intros Ht. unfold total_threshold. rewrite (rnd64_int total), Rmult_1_r, (rnd64_int total) by lia.
  apply Ztrunc_IZR.
Qed.
(** The threshold is the requested share of the total, rounded down to an
    integer, up to the precision of a double. *)
Lemma threshold_accuracy total ratio : (0 <= total < 2 ^ 53)%Z -> 0 <= ratio <= 1 ->
  (0 < total)%Z -> bpow radix2 (-1022) <= ratio ->
  IZR total * ratio * (1 - / 2 ^ 53) - 1 < IZR (total_threshold total ratio).
Proof.
  intros Ht Hr Hp Hn. unfold total_threshold. rewrite (rnd64_int total) by lia.
  assert (H1 : 1 <= IZR total) by (apply (IZR_le 1); lia).
  assert (Hb0 : 0 < bpow radix2 (-1022)) by apply bpow_gt_0.
  set (x := IZR total * ratio). assert (Hx : bpow radix2 (-1022) <= x) by (unfold x; nra).
  pose proof (relative_error_N_FLT radix2 (-1074) 53 ltac:(reflexivity) (fun x => negb (Z.even x)) x) as He.
  cbn [Z.add Z.sub Z.opp] in He. rewrite (Rabs_pos_eq x) in He by lra. specialize (He Hx). fold (rnd64 x) in He.
  assert (E : / 2 * bpow radix2 (- (53) + 1) = / 2 ^ 53) by (cbn; lra).
  assert (He' : Rabs (rnd64 x - x) <= / 2 ^ 53 * x) by (rewrite <- E; exact He). clear He.
  apply Rabs_le_inv in He'.
  assert (L : 0 <= rnd64 x).
  { rewrite <- (rnd64_int 0) by reflexivity. apply rnd64_le. lra. }
  rewrite Ztrunc_floor by exact L. pose proof (Zfloor_ub (rnd64 x)). lra.
Qed.
Close Scope R_scope.

(* ---- sums and the sorted list ---- *)
Lemma sum_sizes_zsum l : sum_sizes l = zsum (map snd l).
Proof. induction l as [|[n s] l IH]; cbn; [reflexivity|]. unfold sum_sizes, zsum in *. cbn. lia. Qed.
Lemma zsum_perm l l' : Permutation l l' -> zsum l = zsum l'.
Proof. induction 1; cbn; unfold zsum in *; lia. Qed.
Lemma zsum_app a b : zsum (a ++ b) = zsum a + zsum b.
Proof. induction a; cbn; unfold zsum in *; lia. Qed.
Lemma zsum_nonneg l : Forall (fun x => 0 <= x) l -> 0 <= zsum l.
Proof. induction 1; cbn; unfold zsum in *; lia. Qed.
Lemma total_wrap l : forall a, 0 <= a -> Forall (fun e : name * Z => 0 <= snd e) l -> a + sum_sizes l < w64 ->
  fold_left (fun a '(_, s) => u64 (a + s)) l a = a + sum_sizes l.
Proof.
  induction l as [|[n s] l IH]; intros a Ha Hf Hs; cbn [fold_left]; [unfold sum_sizes; cbn; lia|].
  inversion Hf as [|? ? H1 H2]; subst. cbn [snd] in H1.
  assert (0 <= sum_sizes l) by (rewrite sum_sizes_zsum; apply zsum_nonneg, Forall_map; exact H2).
  unfold sum_sizes in Hs; cbn in Hs; fold (sum_sizes l) in Hs.
  unfold u64. rewrite Z.mod_small by lia. fold u64. rewrite IH by (try lia; assumption).
  unfold sum_sizes; cbn. lia.
Qed.

Definition desc (a b : Z) : bool := b <=? a.
Lemma desc_sorted l : StronglySorted (fun a b => b <= a) (isort desc l).
Proof.
  assert (H : StronglySorted (le_prop desc) (isort desc l)).
  { apply isort_sorted; unfold desc; intros; lia. }
  revert H. generalize (isort desc l). induction 1 as [|x k Hs IH Hf]; constructor; [exact IH|].
  eapply Forall_impl; [|exact Hf]. unfold le_prop, desc. intros; lia.
Qed.

(** What the position found by lower_bound means. *)
Lemma lower_bound_spec t : forall l acc, Forall (fun x => 0 <= x) l -> 0 <= acc -> acc + zsum l < w64 ->
  acc < t -> t <= acc + zsum l ->
  exists A c B, l = A ++ c :: B /\ nth_error l (lower_bound t (partial_sum acc l)) = Some c /\
    acc + zsum A < t /\ t <= acc + zsum A + c.
Proof.
  induction l as [|x l IH]; intros acc Hf Ha Hs Ht Hle; [cbn in Hle; lia|].
  inversion Hf as [|? ? H1 H2]; subst. unfold zsum in Hs, Hle; cbn in Hs, Hle; fold (zsum l) in Hs, Hle.
  pose proof (zsum_nonneg l H2). cbn [partial_sum]. unfold u64 at 1. rewrite Z.mod_small by lia.
  cbn [lower_bound]. destruct (Z.ltb_spec (acc + x) t) as [Hlt|Hge].
  - assert (E : u64 (acc + x) = acc + x) by (unfold u64; apply Z.mod_small; lia). rewrite E.
    destruct (IH (acc + x) H2 ltac:(lia) ltac:(lia) ltac:(lia) ltac:(lia)) as (A & c & B & -> & Hn & L & U).
    exists (x :: A), c, B. split; [reflexivity|]. split; [exact Hn|]. cbn. unfold zsum in *. lia.
  - exists [], x, l. split; [reflexivity|]. split; [reflexivity|]. cbn. lia.
Qed.

Lemma lower_bound_zero l t acc : Forall (fun x => 0 <= x) l -> 0 <= acc -> t <= acc -> acc + zsum l < w64 ->
  lower_bound t (partial_sum acc l) = O.
Proof.
  destruct l as [|x l]; intros Hf Ha Ht Hs; [reflexivity|]. inversion Hf as [|? ? H1 H2]; subst.
  cbn. pose proof (zsum_nonneg l H2). unfold zsum in Hs; cbn in Hs; fold (zsum l) in Hs.
  unfold u64. rewrite Z.mod_small by lia. destruct (Z.ltb_spec (acc + x) t); [lia|reflexivity].
Qed.

Lemma filter_map_snd f l : map snd (filter (fun e : name * Z => f (snd e)) l) = filter f (map snd l).
Proof. induction l as [|[n s] l IH]; [reflexivity|]. cbn. destruct (f s); cbn; rewrite IH; reflexivity. Qed.
Lemma filter_perm' {A} (f : A -> bool) l l' : Permutation l l' -> Permutation (filter f l) (filter f l').
Proof.
  induction 1; cbn; try (destruct (f x)); try (destruct (f y)); auto using perm_swap, perm_skip.
  eapply perm_trans; eassumption.
Qed.

Lemma sorted_split A c B : StronglySorted (fun a b => b <= a) (A ++ c :: B) ->
  Forall (fun x => c <= x) A /\ Forall (fun x => x <= c) B.
Proof.
  induction A as [|a A IH]; cbn [app]; intros H; inversion H as [|? ? H1 H2]; subst.
  - split; [constructor|exact H2].
  - destruct (IH H1) as [I1 I2]. split; [|exact I2]. constructor; [|exact I1].
    rewrite Forall_forall in H2. apply H2. apply in_app_iff. right; left; reflexivity.
Qed.
Lemma filter_none_le (f : Z -> bool) B : Forall (fun x => f x = false) B -> filter f B = [].
Proof. induction 1 as [|x B H _ IH]; [reflexivity|]. cbn. rewrite H. exact IH. Qed.
Lemma zsum_filter_le f A : Forall (fun x => 0 <= x) A -> zsum (filter f A) <= zsum A.
Proof. induction 1; cbn; [lia|]. destruct (f x); cbn; unfold zsum in *; lia. Qed.
Lemma zsum_filter_all (f : Z -> bool) A : Forall (fun x => f x = true) A -> filter f A = A.
Proof. induction 1 as [|x B H _ IH]; [reflexivity|]. cbn. rewrite H, IH. reflexivity. Qed.

Definition sizes_ok (l : list (name * Z)) : Prop := Forall (fun e => 0 <= snd e) l /\ sum_sizes l < 2 ^ 53.

Lemma fill_unfold orig l ratio : l <> [] -> fillProfileSymbolList orig l ratio =
      if negb (ratio_valid ratio) then Abort
      else if Req_EM_T ratio 0 then Ok []
      else
        let total := fold_left (fun a '(_, s) => u64 (a + s)) l 0 in
        let sizes := isort (fun a b => b <=? a) (map snd l) in
        let t := total_threshold total ratio in
        match sizes with
        | [] => UB
        | biggest :: _ =>
            if t <? biggest then Ok []
            else
              match nth_error sizes (lower_bound t (partial_sum 0 sizes)) with
              | None => UB
              | Some cutoff => Ok (map (fun e => orig (fst e)) (filter (fun e => cutoff <=? snd e) l))
              end
        end.
Proof. destruct l; [congruence|reflexivity]. Qed.

(** Complete description of the result for a ratio in (0, 1]. *)
Lemma fill_cases orig l ratio : l <> [] -> sizes_ok l -> (0 < ratio <= 1)%R ->
  let t := total_threshold (sum_sizes l) ratio in
  (fillProfileSymbolList orig l ratio = Ok [] /\ exists e, In e l /\ t < snd e) \/
  (Forall (fun e => snd e <= t) l /\
   exists c, In c (map snd l) /\
     fillProfileSymbolList orig l ratio = Ok (map (fun e => orig (fst e)) (at_least c l)) /\
     t <= sum_sizes (at_least c l) /\ (sum_sizes (bigger c l) < t \/ bigger c l = [] /\ t = 0)).
Proof.
  intros Hne [Hf Hs] Hr t.
  assert (Hp : 0 <= sum_sizes l) by (rewrite sum_sizes_zsum; apply zsum_nonneg, Forall_map; exact Hf).
  pose proof (threshold_range (sum_sizes l) ratio ltac:(lia) ltac:(lra)) as [Ht0 Ht1]. fold t in Ht0, Ht1.
  assert (Etot : fold_left (fun a '(_, s) => u64 (a + s)) l 0 = sum_sizes l).
  { rewrite total_wrap; [lia|lia|exact Hf|unfold w64; lia]. }
  rewrite (fill_unfold orig l ratio Hne). cbv zeta.
  assert (Ev : ratio_valid ratio = true).
  { unfold ratio_valid. destruct (Rle_dec 0 ratio); [|lra]. destruct (Rle_dec ratio 1); [reflexivity|lra]. }
  rewrite Ev. cbn [negb]. destruct (Req_EM_T ratio 0) as [|Hn0]; [lra|]. rewrite Etot. fold t.
  change (fun a b : Z => b <=? a) with desc.
  pose proof (isort_perm desc (map snd l)) as Hperm. pose proof (desc_sorted (map snd l)) as Hsort.
  assert (Hsum : zsum (isort desc (map snd l)) = sum_sizes l).
  { rewrite sum_sizes_zsum. symmetry. apply zsum_perm. exact Hperm. }
  assert (Hpos : Forall (fun x => 0 <= x) (isort desc (map snd l))).
  { eapply Permutation_Forall; [exact Hperm|]. apply Forall_map. exact Hf. }
  set (srt := isort desc (map snd l)) in *.
  destruct srt as [|big rest] eqn:Es.
  { exfalso. apply Permutation_sym, Permutation_nil in Hperm. destruct l; [congruence|discriminate]. }
  destruct (Z.ltb_spec t big) as [Hlt|Hge].
  - left. split; [reflexivity|].
    assert (In big (map snd l)) as Hin.
    { eapply Permutation_in; [apply Permutation_sym; exact Hperm|]. left; reflexivity. }
    apply in_map_iff in Hin. destruct Hin as (e & <- & He). exists e. auto.
  - right. split.
    { apply Forall_forall. intros e He. apply (in_map snd) in He.
      apply (Permutation_in _ Hperm) in He. destruct He as [<-|He]; [exact Hge|].
      inversion Hsort as [|? ? _ Hh]; subst. rewrite Forall_forall in Hh. specialize (Hh _ He). cbn in Hh. lia. }
    assert (Hc : exists A c B, big :: rest = A ++ c :: B /\
        nth_error (big :: rest) (lower_bound t (partial_sum 0 (big :: rest))) = Some c /\
        (zsum A < t \/ A = [] /\ t = 0) /\ t <= zsum A + c).
    { destruct (Z.eq_dec t 0) as [E0|Hn].
      - exists [], big, rest. split; [reflexivity|]. rewrite lower_bound_zero; try assumption; [|lia|lia|rewrite Hsum; unfold w64; lia].
        split; [reflexivity|]. inversion Hpos; subst. cbn. split; [right; auto|lia].
      - destruct (lower_bound_spec t (big :: rest) 0 Hpos ltac:(lia)) as (A & c & B & E & Hn' & L & U).
        + rewrite Hsum. unfold w64; lia.
        + lia.
        + lia.
        + exists A, c, B. split; [exact E|]. split; [exact Hn'|]. split; [left; lia|lia]. }
    destruct Hc as (A & c & B & Esp & Hnth & Hlow & Hup).
    exists c. rewrite Hnth.
    assert (In c (map snd l)) as Hin.
    { eapply Permutation_in; [apply Permutation_sym; exact Hperm|]. rewrite Esp. apply in_app_iff. right; left; reflexivity. }
    rewrite Esp in Hsort, Hperm, Hpos. destruct (sorted_split A c B Hsort) as [HA HB].
    apply Forall_app in Hpos. destruct Hpos as [HpA HpB]. inversion HpB as [|? ? Hpc HpB'].
    split; [exact Hin|]. split; [reflexivity|]. split.
    + rewrite sum_sizes_zsum. unfold at_least. rewrite (filter_map_snd (fun s => c <=? s)).
      rewrite (zsum_perm _ _ (filter_perm' (fun s => c <=? s) _ _ Hperm)).
      rewrite filter_app, zsum_app. cbn [filter]. rewrite Z.leb_refl.
      rewrite (zsum_filter_all _ A) by (eapply Forall_impl; [|exact HA]; cbn; intros; lia).
      pose proof (zsum_nonneg (filter (fun s => c <=? s) B)) as Hb.
      assert (Forall (fun x => 0 <= x) (filter (fun s => c <=? s) B)) as Hb'.
      { apply Forall_forall. intros y Hx. apply filter_In in Hx. rewrite Forall_forall in HpB'. apply HpB'. tauto. }
      specialize (Hb Hb'). unfold zsum in *; cbn. lia.
    + assert (Eb : zsum (map snd (bigger c l)) = zsum (filter (fun s => c <? s) A)).
      { unfold bigger. rewrite (filter_map_snd (fun s => c <? s)).
        rewrite (zsum_perm _ _ (filter_perm' (fun s => c <? s) _ _ Hperm)).
        rewrite filter_app. cbn [filter]. rewrite Z.ltb_irrefl.
        rewrite (filter_none_le _ B), app_nil_r; [reflexivity|].
        eapply Forall_impl; [|exact HB]. cbn; intros; lia. }
      destruct Hlow as [Hlow|[-> Ht]].
      * left. rewrite sum_sizes_zsum, Eb. pose proof (zsum_filter_le (fun s => c <? s) A HpA). lia.
      * right. split; [|exact Ht].
        assert (Permutation (map snd (bigger c l)) []) as Hpe.
        { unfold bigger. rewrite (filter_map_snd (fun s => c <? s)).
          eapply perm_trans; [apply filter_perm'; exact Hperm|]. cbn [app filter]. rewrite Z.ltb_irrefl.
          rewrite (filter_none_le _ B); [constructor|]. eapply Forall_impl; [|exact HB]. cbn; intros; lia. }
        apply Permutation_sym, Permutation_nil in Hpe. destruct (bigger c l); [reflexivity|discriminate].
Qed.

(** C43, monotonicity: with a symbol, every symbol at least as big is listed.
    Here and below the sizes sum to less than 2^53 (so that they are exact in a
    double). *)
Theorem C43_upward_closed : forall orig l ratio, sizes_ok l -> (0 <= ratio <= 1)%R ->
  exists keep, fillProfileSymbolList orig l ratio = Ok (map (fun e => orig (fst e)) (filter keep l)) /\
    forall e e', In e l -> In e' l -> keep e = true -> snd e <= snd e' -> keep e' = true.
Proof.
  intros orig l ratio Hok Hr. destruct l as [|e0 l0] eqn:El.
  { exists (fun _ => true). split; [reflexivity|]. intros ? ? []. }
  rewrite <- El in *. destruct (Req_EM_T ratio 0) as [->|Hn].
  - exists (fun _ => false). split; [|discriminate].
    rewrite fill_unfold by (rewrite El; discriminate). unfold ratio_valid.
    destruct (Rle_dec 0 0); [|lra]. destruct (Rle_dec 0 1); [|lra]. cbn [negb].
    destruct (Req_EM_T 0 0); [|lra]. replace (filter (fun _ => false) l) with (@nil (name * Z)); [reflexivity|].
    clear. induction l; [reflexivity|assumption].
  - destruct (fill_cases orig l ratio) as [[E _]|(_ & c & _ & E & _)]; [rewrite El; discriminate|exact Hok|lra| |].
    + exists (fun _ => false). split; [|discriminate]. rewrite E.
      replace (filter (fun _ => false) l) with (@nil (name * Z)); [reflexivity|]. clear. induction l; [reflexivity|assumption].
    + exists (fun e => c <=? snd e). split; [exact E|]. cbn. intros. lia.
Qed.

(** C43, coverage: for a ratio in (0,1] let t be that share of the total size,
    rounded down.  Either some symbol alone is bigger than t and nothing is
    listed, or the listed symbols (those not smaller than some cutoff) cover at
    least t and no smaller selection of this form does: the symbols strictly
    bigger than the cutoff do not reach t. *)
Theorem C43_coverage : forall orig l ratio, l <> [] -> sizes_ok l -> (0 < ratio <= 1)%R ->
  let t := total_threshold (sum_sizes l) ratio in
  (fillProfileSymbolList orig l ratio = Ok [] /\ exists e, In e l /\ t < snd e) \/
  (exists c, fillProfileSymbolList orig l ratio = Ok (map (fun e => orig (fst e)) (at_least c l)) /\
     at_least c l <> [] /\
     t <= sum_sizes (at_least c l) /\ (sum_sizes (bigger c l) < t \/ bigger c l = [] /\ t = 0)).
Proof.
  intros orig l ratio Hne Hok Hr t. destruct (fill_cases orig l ratio Hne Hok Hr) as [H|(_ & c & Hi & H1 & H2)].
  - left. exact H.
  - right. exists c. split; [exact H1|]. split; [|exact H2].
    apply in_map_iff in Hi. destruct Hi as (e & E & He). intros Hemp.
    assert (In e (at_least c l)) as Hin by (apply filter_In; split; [exact He|lia]).
    rewrite Hemp in Hin. destruct Hin.
Qed.

(** ... where t is the requested share up to one byte and the relative accuracy
    of a double, and never more than the total. *)
Theorem C43_threshold_accuracy : forall total ratio,
  0 < total < 2 ^ 53 -> (bpow radix2 (-1022) <= ratio <= 1)%R ->
  (IZR total * ratio * (1 - / 2 ^ 53) - 1 < IZR (total_threshold total ratio) <= IZR total)%R.
Proof.
  intros total ratio Ht Hr. assert (0 < bpow radix2 (-1022))%R by apply bpow_gt_0. split.
  - apply threshold_accuracy; try lia; lra.
  - apply IZR_le. apply threshold_range; [lia|lra].
Qed.

(** C43, the extreme ratios: 0 lists nothing, 1 lists exactly the symbols of
    non-zero size (all of them if every size is 0). *)
Theorem C43_ratio_zero : forall orig l, fillProfileSymbolList orig l 0 = Ok [].
Proof.
  intros orig [|e l]; [reflexivity|]. unfold fillProfileSymbolList, ratio_valid.
  destruct (Rle_dec 0 0); [|lra]. destruct (Rle_dec 0 1); [|lra]. cbn [negb].
  destruct (Req_EM_T 0 0); [reflexivity|lra].
Qed.

Lemma sum_sizes_app a b : sum_sizes (a ++ b) = sum_sizes a + sum_sizes b.
Proof. induction a as [|[n s] a IH]; cbn; [reflexivity|]. unfold sum_sizes in *. lia. Qed.
Lemma sum_sizes_split f l : sum_sizes l = sum_sizes (filter f l) + sum_sizes (filter (fun e => negb (f e)) l).
Proof.
  induction l as [|[n s] l IH]; [reflexivity|]. cbn [filter]. destruct (f (n, s)); cbn [negb];
  unfold sum_sizes in *; cbn [fold_right]; rewrite IH; cbn; lia.
Qed.
Lemma sum_sizes_zero l : Forall (fun e : name * Z => 0 <= snd e) l -> sum_sizes l <= 0 -> Forall (fun e => snd e = 0) l.
Proof.
  induction 1 as [|[n s] l H1 H2 IH]; intros Hs; [constructor|]. cbn in *.
  assert (0 <= sum_sizes l) by (rewrite sum_sizes_zsum; apply zsum_nonneg, Forall_map; exact H2).
  unfold sum_sizes in Hs, H; cbn in Hs; fold (sum_sizes l) in Hs, H. constructor; [cbn; lia|apply IH; lia].
Qed.

Theorem C43_ratio_one : forall orig l, sizes_ok l -> 0 < sum_sizes l ->
  fillProfileSymbolList orig l 1 = Ok (map (fun e => orig (fst e)) (filter (fun e => negb (snd e =? 0)) l)).
Proof.
  intros orig l Hok Hpos. assert (Hne : l <> []) by (intros ->; cbn in Hpos; lia).
  assert (Et : total_threshold (sum_sizes l) 1 = sum_sizes l) by (apply threshold_one; destruct Hok; lia).
  destruct (fill_cases orig l 1 Hne Hok ltac:(lra)) as [[_ (e & He & Hlt)]|(_ & c & Hi & E & H1 & H2)]; rewrite Et in *.
  - exfalso. destruct Hok as [Hf _]. clear -Hf He Hlt.
    induction l as [|[n s] l IH]; [destruct He|]. inversion Hf as [|? ? F1 F2]; subst. cbn in F1.
    assert (0 <= sum_sizes l) by (rewrite sum_sizes_zsum; apply zsum_nonneg, Forall_map; exact F2).
    unfold sum_sizes in Hlt, H; cbn in Hlt; fold (sum_sizes l) in Hlt, H.
    destruct He as [<-|He]; [cbn in Hlt; lia|]. apply (IH F2 He). lia.
  - rewrite E. f_equal. f_equal. unfold at_least. destruct Hok as [Hf Hs]. apply filter_ext_in. intros e He.
    assert (He0 : 0 <= snd e) by (rewrite Forall_forall in Hf; apply Hf; exact He).
    (* symbols below the cutoff have size 0 *)
    rewrite (sum_sizes_split (fun e => c <=? snd e) l) in H1 at 1. fold (at_least c l) in H1.
    assert (Hz : Forall (fun e => snd e = 0) (filter (fun e => negb (c <=? snd e)) l)).
    { apply sum_sizes_zero; [|lia]. apply Forall_forall. intros x Hx. apply filter_In in Hx.
      rewrite Forall_forall in Hf. apply Hf. tauto. }
    (* the cutoff is not 0: otherwise the bigger symbols would already be everything *)
    assert (Hc : c <> 0).
    { intros ->. destruct H2 as [H2|[_ H2]]; [|lia].
      rewrite (sum_sizes_split (fun e => 0 <? snd e) l) in H2. fold (bigger 0 l) in H2.
      assert (0 < sum_sizes (filter (fun e => negb (0 <? snd e)) l)) as Hb by lia.
      assert (G : sum_sizes (filter (fun e : name * Z => negb (0 <? snd e)) l) = 0).
      { clear -Hf. induction Hf as [|[n s] l F _ IH]; [reflexivity|]. cbn [filter snd] in *.
        destruct (Z.ltb_spec 0 s); cbn [negb]; [exact IH|]. unfold sum_sizes in *. cbn. lia. }
      lia. }
    assert (Hcp : 0 <= c).
    { apply in_map_iff in Hi. destruct Hi as (x & <- & Hx). rewrite Forall_forall in Hf. apply Hf. exact Hx. }
    destruct (c <=? snd e) eqn:E1.
    + symmetry. apply negb_true_iff. apply Z.eqb_neq. lia.
    + rewrite Forall_forall in Hz. specialize (Hz e). rewrite filter_In, E1 in Hz.
      rewrite (Hz (conj He eq_refl)). reflexivity.
Qed.

(** The English claim "with ratio 1 every symbol is listed" is therefore false:
    a symbol of size 0 is left out. *)
Theorem C43_ratio_one_all_refuted :
  exists orig l, sizes_ok l /\
    fillProfileSymbolList orig l 1 = Ok [[102]] /\ map (fun e => orig (fst e)) l = [[102]; [103]].
Proof.
  exists (fun n => n), [([102], 5); ([103], 0)].
  assert (Hok : sizes_ok [([102], 5); ([103], 0)]).
  { split; [repeat constructor; cbn; lia|cbn; lia]. }
  split; [exact Hok|]. split; [|reflexivity]. rewrite C43_ratio_one by (exact Hok || (cbn; lia)). reflexivity.
Qed.

Theorem C43_bad_ratio_aborts : forall orig l ratio, l <> [] -> (ratio < 0 \/ 1 < ratio)%R ->
  fillProfileSymbolList orig l ratio = Abort.
Proof.
  intros orig [|e l] ratio Hne Hr; [congruence|]. unfold fillProfileSymbolList, ratio_valid.
  destruct (Rle_dec 0 ratio); [destruct (Rle_dec ratio 1); [lra|]|]; reflexivity.
Qed.

(** Two symbols of sizes 6 and 3 and ratio 2/3 of the total 9... here with the
    exactly representable ratio 3/4: threshold 6, the big one is enough. *)
Example C43_nonvacuous :
  let l := [([97], 3); ([98], 6); ([99], 0)] in
  sizes_ok l /\ fillProfileSymbolList (fun n => n) l 1 = Ok [[97]; [98]].
Proof.
  assert (Hok : sizes_ok [([97], 3); ([98], 6); ([99], 0)]).
  { split; [repeat constructor; cbn; lia|cbn; lia]. }
  split; [exact Hok|]. rewrite C43_ratio_one by (exact Hok || (cbn; lia)). reflexivity.
Qed.

Print Assumptions C43_upward_closed.
Print Assumptions C43_coverage.
Print Assumptions C43_threshold_accuracy.
Print Assumptions C43_ratio_zero.
Print Assumptions C43_ratio_one.
Print Assumptions C43_ratio_one_all_refuted.
Print Assumptions C43_bad_ratio_aborts.
