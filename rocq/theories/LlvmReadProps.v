(** C41 and C54: merging LLVM profiles. *)
From Verif Require Import Base SrcOffsetModel SymbolModel SymbolSpec SymbolProofs AttribProofs
  ByteModel LlvmReadModel LlvmReadSpec LlvmReadProofs LlvmMergeProofs.
From Coq Require Import Permutation.

(** Merging always succeeds, and the output is, name by name, what the inputs
    prescribe: for a name of kind [k], the function [s] is in the output exactly
    if it is the [expected] result of the name's occurrences (in reading order)
    and its total is above the threshold.  The threshold is at least 10, and
    exactly 10 unless --sample_threshold_frac raises it. *)
Theorem C41_merged_profile : forall base orig scale sp ps,
  Forall (profile_ok base) ps ->
  exists thr out,
    merge_llvm base orig scale sp ps = Ok (thr, out) /\
    10 <= thr /\ ((forall x, scale x <= 10) -> thr = 10) /\
    NoDup (map fst out) /\
    forall n k, kind_of sp n k ->
      (forall s, In (n, s) out -> expected base orig k (occurrences ps n) s /\ thr < s64 (s_total s)) /\
      (forall s, expected base orig k (occurrences ps n) s -> thr < s64 (s_total s) -> In n (map fst out)).
Proof.
  intros base orig scale sp ps Hp.
  destruct (read_profiles_view base orig sp ps ([], SMap [] []) solo_empty) as ([skip m] & E & Sm & V).
  cbn [snd] in Sm. unfold merge_llvm. rewrite E. cbn [obind snd].
  destruct (threshold_min scale m) as [T1 T2]. set (thr := CalculateThreshold scale m) in *. unfold kMinSamples in *.
  exists thr, (emitted thr m). split; [reflexivity|]. split; [exact T1|]. split; [exact T2|].
  split; [apply emitted_NoDup; exact Sm|]. intros n k K.
  set (fs := occurrences ps n).
  assert (Fn : Forall (fun f => fs_name f = n) fs).
  { apply Forall_forall. intros f I. apply filter_In in I as [_ I]. destruct (name_eqb_spec (fs_name f) n); congruence. }
  assert (Fo : Forall (fs_ok base) fs).
  { apply Forall_forall. intros f I. apply filter_In in I as [I _]. apply in_concat in I as (p & Ip & I).
    rewrite Forall_forall in Hp. destruct (Hp p Ip) as [_ F]. rewrite Forall_forall in F. auto. }
  assert (Vn : sm_find m n = snd (fold_left (fun v f => step base orig sp f v) fs (false, None))).
  { specialize (V n). unfold view in V. cbn [fst snd] in V. apply (f_equal snd) in V. exact V. }
  assert (Mg : is_merge_of base orig fs (eff_tops base orig fs sym0)) by (apply eff_tops_so_far; exact Fo).
  destruct k.
  - rewrite (steps_strip base orig sp n fs K Fn) in Vn. cbn [snd] in Vn.
    split; [|intros s []]. intros s I. apply emitted_spec in I as [I _]; [congruence|exact Sm].
  - rewrite (steps_sole base orig sp n fs K Fn) in Vn. cbn [expected]. split.
    + intros s I. apply emitted_spec in I as [I L]; [|exact Sm]. rewrite I in Vn.
      destruct fs as [|f [|g fs]]; [discriminate| |].
      * split; [|exact L]. split; [reflexivity|]. assert (X : s = eff_tops base orig [f] sym0) by (cbn; congruence).
        rewrite X. exact Mg.
      * exfalso. assert (X : s = zero_counts (eff_top base orig f sym0)) by congruence. rewrite X in L.
        destruct (eff_top base orig f sym0). cbn [zero_counts s_total] in L. unfold s64 in L. cbn in L. lia.
    + intros s [Len Ms] L. destruct fs as [|f [|g fs]]; try discriminate Len.
      assert (X : s_total s = s_total (eff_tops base orig [f] sym0)).
      { destruct Ms as (_ & -> & _). destruct Mg as (_ & -> & _). reflexivity. }
      rewrite X in L. apply (in_map fst _ (n, eff_tops base orig [f] sym0)). apply emitted_spec; auto.
  - rewrite (steps_cold base orig sp n fs K Fn) in Vn. cbn [expected]. split.
    + intros s I. apply emitted_spec in I as [I L]; [|exact Sm]. rewrite I in Vn.
      destruct fs as [|f fs]; [discriminate|]. split; [|exact L]. split; [discriminate|congruence].
    + intros s [Ne ->] L. apply (in_map fst _ (n, cold_symbol)). apply emitted_spec; auto. split; [|exact L].
      destruct fs; [congruence|exact Vn].
  - rewrite (steps_plain base orig sp n fs (false, None) K Fn eq_refl) in Vn. cbn [snd or0] in Vn. cbn [expected]. split.
    + intros s I. apply emitted_spec in I as [I L]; [|exact Sm]. rewrite I in Vn.
      split; [|exact L]. split; [destruct fs; discriminate|].
      assert (X : s = eff_tops base orig fs sym0) by (destruct fs; congruence). rewrite X. exact Mg.
    + intros s [Ne Ms] L.
      assert (X : s_total s = s_total (eff_tops base orig fs sym0)).
      { destruct Ms as (_ & -> & _). destruct Mg as (_ & -> & _). reflexivity. }
      rewrite X in L. apply (in_map fst _ (n, eff_tops base orig fs sym0)). apply emitted_spec; auto.
      split; [|exact L]. destruct fs; [congruence|exact Vn].
Qed.
Print Assumptions C41_merged_profile.

(** the profiles that have a function of this name *)
Definition holders (ps : list (list fsamples)) (n : name) : list (list fsamples) :=
  filter (fun p => existsb (fun f => name_eqb (fs_name f) n) p) ps.

Lemma occurrences_one_profile p n : NoDup (map fs_name p) ->
  length (filter (fun f => name_eqb (fs_name f) n) p) =
  if existsb (fun f => name_eqb (fs_name f) n) p then 1%nat else 0%nat.
Proof.
  induction p as [|f p IH]; intros N; [reflexivity|]. cbn [map] in N. inversion N; subst. cbn [filter existsb].
  destruct (name_eqb_spec (fs_name f) n) as [<-|Ne]; cbn [orb length]; [|auto].
  rewrite IH by auto. destruct (existsb _ p) eqn:X; [|reflexivity]. exfalso. apply H1.
  apply existsb_exists in X as (g & I & E). destruct (name_eqb_spec (fs_name g) (fs_name f)) as [<-|]; [|discriminate].
  apply in_map. exact I.
Qed.
Lemma occurrences_holders base ps n : Forall (profile_ok base) ps ->
  length (occurrences ps n) = length (holders ps n).
Proof.
  unfold occurrences, holders. induction ps as [|p ps IH]; intros F; [reflexivity|].
  inversion F as [|? ? [N _] F']; subst. cbn [concat]. rewrite filter_app, app_length, occurrences_one_profile by auto.
  rewrite IH by auto. cbn [filter]. destruct (existsb _ p); reflexivity.
Qed.

(** The three rules, one by one, with the default threshold. *)
Corollary C41_strip_all : forall base orig scale sp ps thr out n,
  Forall (profile_ok base) ps -> merge_llvm base orig scale (Some sp) ps = Ok (thr, out) ->
  (exists pre, In pre (strip_all sp) /\ begins pre n) -> ~ In n (map fst out).
Proof.
  intros base orig scale sp ps thr out n Hp E (pre & I & B) J.
  destruct (C41_merged_profile base orig scale (Some sp) ps Hp) as (thr' & out' & E' & _ & _ & _ & H).
  rewrite E in E'. assert (out' = out) as -> by congruence.
  apply in_map_iff in J as ([n' s] & <- & J). cbn [fst] in *.
  destruct (H n' Strip) as [H1 _]; [cbn [kind_of]; apply Exists_exists; eauto|]. apply H1 in J. destruct J as [[] _].
Qed.
Print Assumptions C41_strip_all.

Corollary C41_keep_sole : forall base orig scale sp ps thr out n,
  Forall (profile_ok base) ps -> merge_llvm base orig scale (Some sp) ps = Ok (thr, out) ->
  kind_of (Some sp) n Sole ->
  (forall s, In (n, s) out ->
     length (holders ps n) = 1%nat /\ exists f, occurrences ps n = [f] /\ is_merge_of base orig [f] s) /\
  (forall f, occurrences ps n = [f] ->
     thr < s64 (if sampled base f mod 2 ^ 64 =? 0 then fs_total f else sampled base f mod 2 ^ 64) ->
     In n (map fst out)).
Proof.
  intros base orig scale sp ps thr out n Hp E K.
  destruct (C41_merged_profile base orig scale (Some sp) ps Hp) as (thr' & out' & E' & _ & _ & _ & H).
  rewrite E in E'. assert (thr' = thr /\ out' = out) as [-> ->] by (split; congruence).
  destruct (H n Sole K) as [H1 H2]. cbn [expected] in *. rewrite (occurrences_holders base ps n Hp) in H1. split.
  - intros s I. destruct (H1 s I) as [[L M] _]. split; [exact L|].
    rewrite <- (occurrences_holders base ps n Hp) in L.
    destruct (occurrences ps n) as [|f [|g l]]; try discriminate L. exists f. auto.
  - intros f Ef L.
    assert (Fo : Forall (fs_ok base) [f]).
    { rewrite <- Ef. apply Forall_forall. intros g I. apply filter_In in I as [I _]. apply in_concat in I as (p & Ip & I).
      rewrite Forall_forall in Hp. destruct (Hp p Ip) as [_ F]. rewrite Forall_forall in F. auto. }
    destruct (eff_tops_so_far base orig [f] Fo) as [_ M].
    apply (H2 (eff_tops base orig [f] sym0)); [rewrite Ef; split; [reflexivity|exact M]|].
    destruct M as (_ & -> & _). cbn [total_rule]. rewrite Z.add_0_l. exact L.
Qed.
Print Assumptions C41_keep_sole.

Corollary C41_keep_cold : forall base orig scale sp ps thr out n,
  Forall (profile_ok base) ps -> merge_llvm base orig scale (Some sp) ps = Ok (thr, out) ->
  kind_of (Some sp) n Cold ->
  (forall s, In (n, s) out -> s = Sym 0 11 0 [] [] /\ holders ps n <> []) /\
  ((forall x, scale x <= 10) -> holders ps n <> [] -> In (n, Sym 0 11 0 [] []) out).
Proof.
  intros base orig scale sp ps thr out n Hp E K.
  destruct (C41_merged_profile base orig scale (Some sp) ps Hp) as (thr' & out' & E' & _ & T & _ & H).
  rewrite E in E'. assert (thr' = thr /\ out' = out) as [-> ->] by (split; congruence).
  destruct (H n Cold K) as [H1 H2]. cbn [expected] in *.
  pose proof (occurrences_holders base ps n Hp) as L. split.
  - intros s I. destruct (H1 s I) as [[Ne X] _]. split; [exact X|]. intros Hh. rewrite Hh in L.
    destruct (occurrences ps n); [congruence|discriminate L].
  - intros Sc Nh. assert (No : occurrences ps n <> []).
    { intros X. rewrite X in L. destruct (holders ps n); [congruence|discriminate L]. }
    assert (I : In n (map fst out)).
    { apply (H2 cold_symbol); [auto|]. rewrite (T Sc). reflexivity. }
    apply in_map_iff in I as ([n' s] & Q & I). cbn [fst] in Q. subst n'.
    destruct (H1 s I) as [[_ X] _]. unfold cold_symbol in X. rewrite <- X. exact I.
Qed.
Print Assumptions C41_keep_cold.

(** Whatever the order of the inputs: with the default threshold the special
    symbols of the output are the same ones, and say the same. *)
Lemma is_merge_same base orig fs a b : is_merge_of base orig fs a -> is_merge_of base orig fs b -> same_profile a b.
Proof.
  intros (A1 & A2 & A) (B1 & B2 & B) p l t.
  destruct (A p l t) as (a1 & a2 & a3 & a4 & a5 & a6 & a7 & a8). destruct (B p l t) as (b1 & b2 & b3 & b4 & b5 & b6 & b7 & b8).
  assert (X : forall x y : bool, (x = true <-> y = true) -> x = y) by (intros [] []; intuition congruence).
  split; [apply X; rewrite a1, b1; reflexivity|].
  split; [destruct p as [|k p]; [change (s_total a = s_total b); congruence|rewrite a3, b3 by discriminate; reflexivity]|].
  split; [destruct p as [|k p]; [change (s_head a = s_head b); congruence|rewrite a2, b2 by discriminate; reflexivity]|].
  split; [congruence|]. split; [congruence|]. split; [congruence|].
  split; [apply X; rewrite a8, b8; reflexivity|congruence].
Qed.

Lemma Permutation_filter' {A} (f : A -> bool) l l' : Permutation l l' -> Permutation (filter f l) (filter f l').
Proof.
  induction 1; cbn [filter]; [constructor| | |eapply perm_trans; eauto].
  - destruct (f x); [constructor|]; assumption.
  - destruct (f x), (f y); try apply Permutation_refl. apply perm_swap.
Qed.
Lemma occurrences_perm ps ps' n : Permutation ps ps' -> Permutation (occurrences ps n) (occurrences ps' n).
Proof.
  intros P. apply Permutation_filter'. induction P; cbn [concat].
  - constructor.
  - apply Permutation_app_head. assumption.
  - rewrite !app_assoc. apply Permutation_app_tail. apply Permutation_app_comm.
  - eapply perm_trans; eauto.
Qed.

Theorem C41_order_independent : forall base orig scale sp ps ps' thr out thr' out',
  Forall (profile_ok base) ps -> Permutation ps ps' -> (forall x, scale x <= 10) ->
  merge_llvm base orig scale (Some sp) ps = Ok (thr, out) ->
  merge_llvm base orig scale (Some sp) ps' = Ok (thr', out') ->
  forall n k s, kind_of (Some sp) n k -> k <> Plain -> In (n, s) out ->
  exists s', In (n, s') out' /\ same_profile s s'.
Proof.
  intros base orig scale sp ps ps' thr out thr' out' Hp P Sc E E' n k s K Nk I.
  assert (Hp' : Forall (profile_ok base) ps') by (eapply Permutation_Forall; eauto).
  destruct (C41_merged_profile base orig scale (Some sp) ps Hp) as (t1 & o1 & F1 & _ & T1 & _ & H1).
  destruct (C41_merged_profile base orig scale (Some sp) ps' Hp') as (t2 & o2 & F2 & _ & T2 & _ & H2).
  rewrite E in F1. rewrite E' in F2. assert (t1 = thr /\ o1 = out) as [-> ->] by (split; congruence).
  assert (t2 = thr' /\ o2 = out') as [-> ->] by (split; congruence).
  specialize (T1 Sc). specialize (T2 Sc). destruct (H1 n k K) as [A _]. destruct (A s I) as [X L].
  destruct (H2 n k K) as [B C]. pose proof (occurrences_perm ps ps' n P) as Po.
  assert (Ex : exists s', expected base orig k (occurrences ps' n) s' /\ s_total s' = s_total s).
  { destruct k; cbn [expected] in *; [destruct X| | |congruence].
    - destruct X as [Len M]. destruct (occurrences ps n) as [|f [|g l]]; try discriminate Len.
      apply Permutation_length_1_inv in Po. rewrite Po. exists s. auto.
    - destruct X as [Ne ->]. exists cold_symbol. split; [|reflexivity]. split; [|reflexivity].
      intros X. rewrite X in Po. apply Permutation_sym, Permutation_nil in Po. congruence. }
  destruct Ex as (s' & X' & Et). assert (J : In n (map fst out')).
  { apply (C s' X'). rewrite Et. rewrite T1 in L. rewrite T2. exact L. }
  apply in_map_iff in J as ([n' s2] & Q & J). cbn [fst] in Q. subst n'. exists s2. split; [exact J|].
  destruct (B s2 J) as [X2 _]. destruct k; cbn [expected] in *; [destruct X| | |congruence].
  - destruct X as [Len M]. destruct X2 as [_ M2]. destruct (occurrences ps n) as [|f [|g l]]; try discriminate Len.
    apply Permutation_length_1_inv in Po. rewrite Po in M2. eapply is_merge_same; eauto.
  - destruct X as [_ ->]. destruct X2 as [_ ->]. apply same_refl.
Qed.
Print Assumptions C41_order_independent.

(** *** A concrete merge: profiles over functions s* (strip), k* (keep sole),
    c* (keep cold) and others. *)
Definition ex_id (x : Z) : Z := x.
Definition ex_sp : special := Special [[115]] [[107]] [[99]].
(* f: body at line 1 (count 40, target g: 4) and inlined g at line 2 (count 7) *)
Definition ex_f : fsamples :=
  FS [102] 5 47 [((1, 0), (40, [([103], 4)]))] [((2, 0), FS [103] 0 7 [((3, 0), (7, []))] [])].
Definition ex_f2 : fsamples := FS [102] 1 20 [((1, 0), (20, [([103], 9)]))] [].
Definition ex_k1 : fsamples := FS [107; 49] 2 30 [((1, 0), (30, []))] [].
Definition ex_k2 : fsamples := FS [107; 50] 2 33 [((1, 0), (33, []))] [].
Definition ex_c (v : Z) : fsamples := FS [99] 2 v [((1, 0), (v, []))] [].
Definition ex_s : fsamples := FS [115; 120] 2 99 [((1, 0), (99, []))] [].
Definition ex_ps : list (list fsamples) := [[ex_f; ex_k1; ex_s]; [ex_k2; ex_c 500; ex_f2]; [ex_c 3; ex_k2]].

Lemma name_ne_begins x n : (exists y r, n = y :: r /\ y <> x) -> ~ Exists (fun pre => begins pre n) [[x]].
Proof.
  intros (y & r & -> & Ne) X. inversion X as [? ? [q E]|? ? X']; subst; [|inversion X'].
  cbn [app] in E. congruence.
Qed.

Ltac u64_tac := unfold is_u64; lia.
Definition ex_orig (n : name) : name := n.
Definition ex_out : list (name * symbol) :=
  Eval vm_compute in
    match merge_llvm ex_id ex_orig (fun _ => 0) (Some ex_sp) ex_ps with Ok (_, o) => o | _ => [] end.
Lemma ex_ps_ok : Forall (profile_ok ex_id) ex_ps.
Proof.
  unfold ex_ps. repeat constructor; cbn [fs_head fs_total ex_f ex_f2 ex_k1 ex_k2 ex_c ex_s r_count snd]; try u64_tac;
    cbn; intuition discriminate.
Qed.
Example C41_nonvacuous :
  Forall (profile_ok ex_id) ex_ps /\
  kind_of (Some ex_sp) [107; 49] Sole /\ kind_of (Some ex_sp) [99] Cold /\ kind_of (Some ex_sp) [102] Plain /\
  length (holders ex_ps [107; 49]) = 1%nat /\ length (holders ex_ps [107; 50]) = 2%nat /\
  merge_llvm ex_id ex_orig (fun _ => 0) (Some ex_sp) ex_ps = Ok (10, ex_out) /\
  map fst ex_out = [[102]; [107; 49]; [99]].
Proof.
  split; [exact ex_ps_ok|].
  split; [split; [apply Exists_cons_hd; exists [49]; reflexivity|apply name_ne_begins; exists 107, [49]; split; [reflexivity|lia]]|].
  split; [split; [apply Exists_cons_hd; exists []; reflexivity|split; apply name_ne_begins; exists 99, []; split; [reflexivity|lia|reflexivity|lia]]|].
  split; [split; [|split]; apply name_ne_begins; exists 102, []; split; [reflexivity|lia|reflexivity|lia|reflexivity|lia]|].
  split; [vm_compute; reflexivity|]. split; [vm_compute; reflexivity|].
  split; [vm_compute; reflexivity|]. vm_compute; reflexivity.
Qed.

(** What the special handling does not guarantee: with
    --sample_threshold_frac = 0.05 a keep-cold symbol that is in the inputs is
    not in the output (the constant 11 is below the threshold). *)
Theorem C41_keep_cold_threshold_refuted :
  ~ (forall base orig scale sp ps thr out n,
       Forall (profile_ok base) ps -> merge_llvm base orig scale (Some sp) ps = Ok (thr, out) ->
       kind_of (Some sp) n Cold -> holders ps n <> [] -> In n (map fst out)).
Proof.
  intros H.
  set (ps := [[FS [102] 5 400 [((1, 0), (400, []))] []; ex_c 500]]).
  specialize (H ex_id ex_orig (fun x => x / 20) ex_sp ps 20 [([102], Sym 5 400 0 [(4294967296, PInfo 400 1 [])] [])] [99]).
  assert (In [99] (map fst [([102], Sym 5 400 0 [(4294967296, PInfo 400 1 [])] [])])).
  { apply H.
    - unfold ps. repeat constructor; cbn [fs_head fs_total ex_c r_count snd]; try u64_tac; cbn; intuition discriminate.
    - vm_compute. reflexivity.
    - split; [apply Exists_cons_hd; exists []; reflexivity|split; apply name_ne_begins; exists 99, []; split; [reflexivity|lia|reflexivity|lia]].
    - vm_compute. discriminate. }
  destruct H0 as [X|[]]. discriminate X.
Qed.
Print Assumptions C41_keep_cold_threshold_refuted.

(** *** C54 *)

(** Without special handling (--merge_special_syms), or for a name no special
    list matches: the function is in the output if and only if an input has it
    and its total is above the threshold, and its counts are the sums. *)
Theorem C54_counts_add_up : forall base orig scale sp ps,
  Forall (profile_ok base) ps ->
  exists thr out,
    merge_llvm base orig scale sp ps = Ok (thr, out) /\
    forall n, kind_of sp n Plain ->
      (forall s, In (n, s) out -> is_merge_of base orig (occurrences ps n) s) /\
      (In n (map fst out) <->
         occurrences ps n <> [] /\ thr < s64 (total_rule base 0 (occurrences ps n))).
Proof.
  intros base orig scale sp ps Hp.
  destruct (C41_merged_profile base orig scale sp ps Hp) as (thr & out & E & _ & _ & _ & H).
  exists thr, out. split; [exact E|]. intros n K. destruct (H n Plain K) as [A B]. cbn [expected] in *. split.
  - intros s I. apply A in I. tauto.
  - split.
    + intros I. apply in_map_iff in I as ([n' s] & Q & I). cbn [fst] in Q. subst n'.
      destruct (A s I) as [[X M] L]. split; [exact X|]. destruct M as (_ & M & _). rewrite <- M. exact L.
    + intros [X L]. assert (Fo : Forall (fs_ok base) (occurrences ps n)).
      { apply Forall_forall. intros g I. apply filter_In in I as [I _]. apply in_concat in I as (p & Ip & I).
        rewrite Forall_forall in Hp. destruct (Hp p Ip) as [_ F]. rewrite Forall_forall in F. auto. }
      destruct (eff_tops_so_far base orig _ Fo) as [_ M].
      apply (B (eff_tops base orig (occurrences ps n) sym0)); [auto|]. destruct M as (_ & -> & _). exact L.
Qed.
Print Assumptions C54_counts_add_up.

(** The order of the inputs is invisible in all counts except the call targets
    and the function's own total; and also in the latter if every function has
    samples and the sum fits a counter. *)
Lemma zsum_perm l l' : Permutation l l' -> zsum l = zsum l'.
Proof. unfold zsum. induction 1; cbn [fold_right]; lia. Qed.
Lemma Permutation_flat_map' {A B} (f : A -> list B) l l' : Permutation l l' -> Permutation (flat_map f l) (flat_map f l').
Proof.
  induction 1; cbn [flat_map]; [constructor|apply Permutation_app_head; auto| |eapply perm_trans; eauto].
  rewrite !app_assoc. apply Permutation_app_tail. apply Permutation_app_comm.
Qed.

Theorem C54_order_independent : forall base orig fs fs' s s',
  Permutation fs fs' -> is_merge_of base orig fs s -> is_merge_of base orig fs' s' ->
  s_head s = s_head s' /\
  (forall q l t,
     has_node s q = has_node s' q /\ (q <> [] -> total_at s q = total_at s' q) /\
     has_pos s q l = has_pos s' q l /\ count_at s q l = count_at s' q l /\ ninst_at s q l = ninst_at s' q l /\
     has_target s q l t = has_target s' q l t) /\
  (Forall (fun f => 0 < sampled base f) fs -> zsum (map (sampled base) fs) < 2 ^ 64 ->
   s_total s = zsum (map (sampled base) fs) /\ s_total s' = s_total s).
Proof.
  intros base orig fs fs' s s' P (A1 & A2 & A) (B1 & B2 & B).
  assert (X : forall x y : bool, (x = true <-> y = true) -> x = y) by (intros [] []; intuition congruence).
  split; [rewrite A1, B1, (zsum_perm _ _ (Permutation_map fs_head P)); reflexivity|].
  split.
  - intros q l t.
    destruct (A q l t) as (a1 & a2 & a3 & a4 & a5 & a6 & a7 & a8). destruct (B q l t) as (b1 & b2 & b3 & b4 & b5 & b6 & b7 & b8).
    assert (Pu : Permutation (recs_under base fs q) (recs_under base fs' q))
      by (apply Permutation_filter', Permutation_flat_map'; exact P).
    assert (Pa : Permutation (recs_at base fs q l) (recs_at base fs' q l))
      by (apply Permutation_filter', Permutation_flat_map'; exact P).
    assert (N : forall T (x y : list T), Permutation x y -> x <> [] -> y <> []).
    { intros T x y Q Nx ->. apply Permutation_sym, Permutation_nil in Q. congruence. }
    split; [apply X; rewrite a1, b1; split; (intros [H|H]; [left; exact H|right]); eapply N; try exact H; auto using Permutation_sym|].
    split; [intros Nq; rewrite a3, b3, (zsum_perm _ _ (Permutation_map r_count Pu)) by auto; reflexivity|].
    split. { rewrite a4, b4. f_equal. destruct (recs_at base fs q l) eqn:E1, (recs_at base fs' q l) eqn:E2; auto.
      - apply Permutation_nil in Pa. discriminate.
      - apply Permutation_sym, Permutation_nil in Pa. discriminate. }
    split; [rewrite a5, b5, (zsum_perm _ _ (Permutation_map r_count Pa)); reflexivity|].
    split; [rewrite a6, b6, (Permutation_length Pa); reflexivity|].
    apply X. rewrite a8, b8. pose proof (Permutation_flat_map' (fun r => map snd (filter (fun tc => name_eqb (orig (fst tc)) t) (r_targets r))) _ _ Pa) as Pt.
    split; apply N; auto using Permutation_sym.
  - assert (T : forall l T, 0 <= T -> Forall (fun f => 0 < sampled base f) l -> T + zsum (map (sampled base) l) < 2 ^ 64 ->
        total_rule base T l = T + zsum (map (sampled base) l)).
    { clear. induction l as [|f l IH]; intros T H0 F L; [cbn [map total_rule]; change (zsum []) with 0; lia|].
      inversion F; subst. cbn [map total_rule] in *. change (zsum (sampled base f :: map (sampled base) l)) with
        (sampled base f + zsum (map (sampled base) l)) in *.
      assert (0 <= zsum (map (sampled base) l)).
      { clear - H3. induction H3; [cbn; lia|]. cbn [map]. change (zsum (sampled base x :: map (sampled base) l)) with
          (sampled base x + zsum (map (sampled base) l)). lia. }
      rewrite Z.mod_small by lia. destruct (Z.eqb_spec (T + sampled base f) 0); [lia|]. rewrite IH; auto; lia. }
    intros F L. rewrite A2, B2, (T fs 0), (T fs' 0); try lia; auto.
    + rewrite !Z.add_0_l. split; [reflexivity|]. symmetry. apply zsum_perm, Permutation_map. exact P.
    + eapply Permutation_Forall; eauto.
    + rewrite <- (zsum_perm _ _ (Permutation_map (sampled base) P)). lia.
Qed.
Print Assumptions C54_order_independent.

Example C54_nonvacuous :
  Forall (profile_ok ex_id) ex_ps /\ occurrences ex_ps [102] = [ex_f; ex_f2] /\
  exists s, In ([102], s) ex_out /\ s_head s = 6 /\ s_total s = 67 /\ count_at s [] 4294967296 = 60 /\
    count_at s [(8589934592, [103])] 12884901888 = 7.
Proof.
  split; [exact ex_ps_ok|]. split; [vm_compute; reflexivity|].
  eexists. split; [left; reflexivity|]. vm_compute. repeat split.
Qed.

(** ... but call targets are overwritten, not added: the last profile wins. *)
Theorem C54_targets_add_refuted :
  ~ (forall base orig scale ps thr out n s,
       Forall (profile_ok base) ps -> merge_llvm base orig scale None ps = Ok (thr, out) -> In (n, s) out ->
       forall q l t, target_at s q l t = zsum (target_counts orig (recs_at base (occurrences ps n) q l) t) mod 2 ^ 64).
Proof.
  intros H.
  specialize (H ex_id ex_orig (fun _ => 0) [[ex_f]; [ex_f2]] 10
    [([102], Sym 6 67 0 [(4294967296, PInfo 60 2 [([103], 9)])] [((8589934592, [103]), Sym 0 7 0 [(12884901888, PInfo 7 1 [])] [])])]
    [102] (Sym 6 67 0 [(4294967296, PInfo 60 2 [([103], 9)])] [((8589934592, [103]), Sym 0 7 0 [(12884901888, PInfo 7 1 [])] [])])).
  assert (X : target_at (Sym 6 67 0 [(4294967296, PInfo 60 2 [([103], 9)])] [((8589934592, [103]), Sym 0 7 0 [(12884901888, PInfo 7 1 [])] [])]) [] 4294967296 [103]
              = zsum (target_counts ex_orig (recs_at ex_id (occurrences [[ex_f]; [ex_f2]] [102]) [] 4294967296) [103]) mod 2 ^ 64).
  { apply H; [|vm_compute; reflexivity|left; reflexivity].
    repeat constructor; cbn [fs_head fs_total ex_f ex_f2 r_count snd]; try u64_tac; cbn; intuition discriminate. }
  vm_compute in X. discriminate X.
Qed.
Print Assumptions C54_targets_add_refuted.

(** ... and a function's total depends on the order when one of the inputs has
    a total without samples (no debug information): read first it counts, read
    later it is lost. *)
Theorem C54_total_order_refuted :
  exists base orig scale p1 p2 s s' thr,
    profile_ok base p1 /\ profile_ok base p2 /\
    merge_llvm base orig scale None [p1; p2] = Ok (thr, [([102], s)]) /\
    merge_llvm base orig scale None [p2; p1] = Ok (thr, [([102], s')]) /\
    s_total s = 33 + 20 /\ s_total s' = 20.
Proof.
  exists ex_id, ex_orig, (fun _ => 0), [FS [102] 0 33 [] []], [ex_f2].
  exists (Sym 1 53 0 [(4294967296, PInfo 20 1 [([103], 9)])] []), (Sym 1 20 0 [(4294967296, PInfo 20 1 [([103], 9)])] []), 10.
  assert (Q : forall f, fs_ok ex_id f -> profile_ok ex_id [f]).
  { intros f F. split; [repeat constructor; intros []|repeat constructor; apply F]. }
  split; [apply Q; split; [cbn [fs_head]; u64_tac|split; [cbn [fs_total]; u64_tac|constructor]]|].
  split; [apply Q; split; [cbn [fs_head ex_f2]; u64_tac|split; [cbn [fs_total ex_f2]; u64_tac|]];
          repeat constructor; cbn [r_count snd]; try u64_tac; cbn; discriminate|].
  split; [vm_compute; reflexivity|]. split; [vm_compute; reflexivity|]. split; reflexivity.
Qed.
Print Assumptions C54_total_order_refuted.
