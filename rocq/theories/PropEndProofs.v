(** Proofs about the Propeller run: the graphs the builder makes. *)
From Coq Require Import Sorted Permutation.
From Verif Require Import Base ISort StdSearch SymbolModel SymbolProofs MapperModel MapperSpec MapperProofs MapperProps
  CfgFreqModel CfgBuildModel CfgBuildSpec CfgBuildProofs CfgBuildTotal CfgBuildProps.

(** * The shape of the mapper *)
Record shape (fs : list func_map) (im : info_map) (mp : mapper) : Prop := {
  sh_funcs : mp_funcs mp = fs;
  sh_sorted : StronglySorted lt (mp_selected mp);
  sh_in : forall i, In i (mp_selected mp) -> (i < length fs)%nat /\ exists s, info_of im i = Some s;
  sh_handles : mp_handles mp = handles_of fs (mp_selected mp);
  sh_layout : layout_ok mp }.

Lemma build_shape order ot fs im hot mp : any_order order -> binary_ok fs -> addrs_ok hot ->
  BuildMapper order ot fs im hot = Ok mp -> shape fs im mp.
Proof.
  intros Ho B Ha E. destruct (C34_blocks _ _ _ _ _ _ B Ha E) as [L _]. revert E. unfold BuildMapper.
  destruct (SelectFunctions order ot fs im hot) as [[sel d]| |] eqn:E; cbn [obind]; try discriminate.
  destruct (Select_sorted _ _ _ _ _ _ _ B Ha E) as [S1 S2]. destruct (C47_unique_names _ _ _ _ _ _ _ Ho B Ha E) as [C _].
  destruct (build_loop fs None sel []) as [hs| |] eqn:Eb; cbn [obind]; try discriminate.
  intros Em; injection Em as <-. apply build_loop_ok in Eb. cbn [app] in Eb. subst hs. constructor; cbn [mp_funcs mp_selected mp_handles]; auto.
  intros i Hi. split; [auto|]. destruct (C i Hi) as [_ [_ [s [Hs _]]]]. eauto.
Qed.

Section Shape.
  Context (fs : list func_map) (im : info_map) (mp : mapper).
  Hypothesis SH : shape fs im mp.

  Lemma shape_nodup : NoDup (mp_handles mp).
  Proof. rewrite (sh_handles _ _ _ SH). apply handles_NoDup, (sh_sorted _ _ _ SH). Qed.
  Lemma shape_In h : In h (mp_handles mp) <-> In (bh_func h) (mp_selected mp) /\ (bh_bb h < nents fs (bh_func h))%nat.
  Proof. rewrite (sh_handles _ _ _ SH). apply In_handles_of. Qed.
  Lemma blk_In i : (i < blk_count mp)%nat -> In (blk_handle mp i) (mp_handles mp).
  Proof. intros H. apply nth_In. exact H. Qed.
  Lemma In_blk h : In h (mp_handles mp) -> exists i, (i < blk_count mp)%nat /\ blk_handle mp i = h.
  Proof. intros H. apply (In_nth _ _ no_handle) in H as [i [H1 H2]]. exists i. auto. Qed.
  Lemma blk_inj i j : (i < blk_count mp)%nat -> (j < blk_count mp)%nat -> blk_handle mp i = blk_handle mp j -> i = j.
  Proof. intros Hi Hj E. exact (proj1 (NoDup_nth (mp_handles mp) no_handle) shape_nodup i j Hi Hj E). Qed.
  Lemma blk_lt i j : (i < j < blk_count mp)%nat ->
    (blk_func mp i < blk_func mp j)%nat \/ (blk_func mp i = blk_func mp j /\ (bh_bb (blk_handle mp i) < bh_bb (blk_handle mp j))%nat).
  Proof.
    intros H. unfold blk_count in H. unfold blk_func, blk_handle. rewrite (sh_handles _ _ _ SH) in *.
    exact (sorted_nth _ _ no_handle i j (handles_sorted fs _ (sh_sorted _ _ _ SH)) H).
  Qed.
  Lemma blk_func_le i j : (i <= j < blk_count mp)%nat -> (blk_func mp i <= blk_func mp j)%nat.
  Proof. intros H. destruct (Nat.eq_dec i j) as [->|]; [lia|]. destruct (blk_lt i j ltac:(lia)); lia. Qed.
  Lemma blk_prev j : (j < blk_count mp)%nat -> bh_bb (blk_handle mp j) <> 0%nat ->
    j <> 0%nat /\ blk_handle mp (j - 1) = BbHandle (blk_func mp j) (bh_bb (blk_handle mp j) - 1).
  Proof.
    intros Hj Hb. destruct (proj1 (shape_In _) (blk_In j Hj)) as [A1 A2]. change (bh_func (blk_handle mp j)) with (blk_func mp j) in *.
    assert (X : In (BbHandle (blk_func mp j) (bh_bb (blk_handle mp j) - 1)) (mp_handles mp)) by (apply shape_In; cbn; split; [exact A1|lia]).
    apply In_blk in X as [k [Hk Ek]].
    assert (Fk : blk_func mp k = blk_func mp j) by (unfold blk_func at 1; fold (blk_handle mp k); rewrite Ek; reflexivity).
    assert (Bk : bh_bb (blk_handle mp k) = (bh_bb (blk_handle mp j) - 1)%nat) by (rewrite Ek; reflexivity).
    assert (Kj : (k < j)%nat).
    { destruct (Nat.lt_trichotomy k j) as [|[->|C]]; [assumption|lia|]. pose proof (blk_lt j k ltac:(lia)). lia. }
    assert (E : k = (j - 1)%nat).
    { destruct (Nat.eq_dec k (j - 1)) as [|N]; [assumption|]. exfalso.
      pose proof (blk_lt k (j - 1) ltac:(lia)) as C1. pose proof (blk_lt (j - 1) j ltac:(lia)) as C2. lia. }
    split; [lia|]. rewrite <- E. exact Ek.
  Qed.
  Lemma blk_next i : (S i < blk_count mp)%nat -> blk_func mp i = blk_func mp (S i) ->
    bh_bb (blk_handle mp (S i)) = S (bh_bb (blk_handle mp i)).
  Proof.
    intros H E. pose proof (blk_lt i (S i) ltac:(lia)) as L. destruct (blk_prev (S i) H ltac:(lia)) as [_ P].
    replace (S i - 1)%nat with i in P by lia. rewrite P. cbn [bh_bb]. lia.
  Qed.
  (** The first block of each function has its own address. *)
  Hypothesis FIRST : forall f, (f < length fs)%nat -> be_offset (ent fs f 0) = 0.
  Lemma entry_start i : (i < blk_count mp)%nat -> bh_bb (blk_handle mp i) = 0%nat -> blk_start mp i = func_start mp i.
  Proof.
    intros Hi Hb. destruct (proj1 (shape_In _) (blk_In i Hi)) as [A1 _]. destruct (sh_in _ _ _ SH _ A1) as [A2 _].
    unfold blk_start, func_start, GetFunctionEntry. fold (blk_handle mp i). change (bh_func (blk_handle mp i)) with (blk_func mp i) in *.
    pose proof (FIRST _ A2) as F. unfold ent in F. unfold GetBBEntry, GetFunctionEntry. rewrite Hb. change (bh_func (blk_handle mp i)) with (blk_func mp i).
    rewrite (sh_funcs _ _ _ SH). rewrite F. lia.
  Qed.
  Lemma func_start_eq i j : blk_func mp i = blk_func mp j -> func_start mp i = func_start mp j.
  Proof. intros E. unfold func_start. rewrite E. reflexivity. Qed.

  (** A branch that counts as "branch or fall-through" stays in its function
      and does not go to the entry. *)
  Lemma branch_local c a b : branch_ends mp c = Some (a, b) -> branch_kind mp c = Some KBranchOrFallthrough ->
    blk_func mp a = blk_func mp b /\ bh_bb (blk_handle mp b) <> 0%nat.
  Proof.
    destruct c as [[from to] w]. unfold branch_kind. intros E K. rewrite E in K. unfold branch_ends in E.
    destruct (block_of mp from DFrom) as [i|] eqn:EF; [|discriminate]. destruct (block_of mp to DTo) as [j|] eqn:ET; [|discriminate].
    injection E as <- Eb. pose proof (block_of_range mp (sh_layout _ _ _ SH) _ _ _ ET) as Hj.
    destruct (Z.eqb_spec to (func_start mp b)) as [|N1]; [discriminate|]. destruct (Z.eqb_spec to (blk_start mp b)) as [E2|]; [|discriminate].
    destruct (be_return (blk_entry mp i)) eqn:R; [discriminate|]. clear K. cbn [negb orb] in *.
    destruct (returns_behind_call mp from to j) eqn:Q.
    - exfalso. subst b. unfold returns_behind_call in Q. apply andb_prop in Q as [Q Q4]. apply andb_prop in Q as [Q Q3]. apply andb_prop in Q as [_ Q2].
      destruct (Nat.eqb_spec (bh_bb (blk_handle mp j)) 0) as [|Nb]; [discriminate|]. destruct (blk_prev j Hj Nb) as [J0 P].
      unfold block_of in ET. destruct (FindBb false mp to DTo) as [r| |] eqn:Fd; try discriminate. subst r.
      apply C34_target in Fd; [|apply (sh_layout _ _ _ SH)]. destruct Fd as [[_ C]|[k [Hk [K1 [K2 [K3 K4]]]]]]; [lia|].
      destruct (K4 (j - 1)%nat ltac:(lia)) as [K4'|K4']; [congruence|]. apply K4'. destruct (K3 j ltac:(lia)) as [_ K3']. rewrite <- K3'.
      unfold blk_func at 1. fold (blk_handle mp (j - 1)). rewrite P. reflexivity.
    - subst b. assert (Nb : bh_bb (blk_handle mp j) <> 0%nat) by (intros Z0; apply N1; rewrite E2; apply (entry_start j Hj Z0)).
      split; [|exact Nb]. unfold returns_behind_call in Q. rewrite EF, R in Q. cbn [orb] in Q.
      destruct (Nat.eqb_spec (blk_func mp j) (blk_func mp i)) as [->|NF]; [reflexivity|]. exfalso. cbn [negb andb] in Q.
      rewrite <- E2 in Q. rewrite Z.eqb_refl in Q. destruct (Z.eqb_spec to (func_start mp j)); [congruence|].
      destruct (Nat.eqb_spec (bh_bb (blk_handle mp j)) 0); [congruence|discriminate].
  Qed.
  Lemma path_local a f t : (f <= a < t)%nat -> (t < blk_count mp)%nat -> fallthrough_path mp f t ->
    blk_func mp a = blk_func mp (S a) /\ bh_bb (blk_handle mp (S a)) <> 0%nat.
  Proof.
    intros H Ht [E|[E _]]; [lia|]. assert (F : blk_func mp a = blk_func mp (S a)).
    { pose proof (blk_func_le f a ltac:(lia)). pose proof (blk_func_le a (S a) ltac:(lia)). pose proof (blk_func_le (S a) t ltac:(lia)). lia. }
    split; [exact F|]. rewrite (blk_next a ltac:(lia) F). lia.
  Qed.
End Shape.

(** * The keys of the edges are blocks of the mapper *)
Definition keys_in (mp : mapper) (st : cstate) : Prop :=
  forall k, In k (akeys (cs_edges st)) -> In (fst k) (mp_handles mp) /\ In (snd k) (mp_handles mp).
Section Keys.
  Context (dbg : bool) (pre : list ekey) (has : bb_handle -> bool) (mp : mapper).
  Hypothesis HAS : forall h, has h = true -> In h (mp_handles mp).
  Lemma ice_keys from to w kd st b st' : keys_in mp st -> InternalCreateEdge dbg pre has mp from to w kd st = Ok (b, st') -> keys_in mp st'.
  Proof.
    intros K. unfold InternalCreateEdge. destruct (aget ekey_eqb _ (cs_edges st)) as [[w0 k0]|] eqn:E.
    - destruct (int_add w0 w) as [w'| |]; cbn [obind]; try discriminate. intros H; injection H as _ <-. intros k Hin. cbn [cs_edges] in Hin.
      apply (In_akeys_aset ekey_eqb ekey_eqb_spec) in Hin as [-> |Hin]; [|exact (K k Hin)].
      apply (aget_In ekey_eqb ekey_eqb_spec) in E. apply (K _ (in_map fst _ _ E)).
    - destruct (has _ && has _) eqn:Hh; [|intros H; injection H as _ <-; exact K]. destruct (create_check _ _ _ _); [|discriminate].
      intros H; injection H as _ <-. apply andb_prop in Hh as [H1 H2]. intros k Hin. cbn [cs_edges] in Hin.
      apply (In_akeys_aset ekey_eqb ekey_eqb_spec) in Hin as [-> |Hin]; [auto|exact (K k Hin)].
  Qed.
  Lemma branch_loop_keys : forall cs s st ft d, keys_in mp (fst (fst s)) -> branch_loop dbg pre has mp cs s = Ok (st, ft, d) -> keys_in mp st.
  Proof.
    induction cs as [|c cs IH]; intros s st ft d K; cbn [branch_loop]; [intros E; injection E as E; subst s; exact K|].
    destruct (branch_step dbg pre has mp c s) as [s'| |] eqn:E; cbn [obind]; try discriminate. apply IH. clear IH.
    destruct c as [[bf bt] w]. destruct s as [[st0 ft0] d0]. cbn [fst] in K. unfold branch_step in E.
    destruct (FindBb dbg mp bf DFrom) as [from| |]; cbn [obind] in E; try discriminate.
    destruct (FindBb dbg mp bt DTo) as [to| |]; cbn [obind] in E; try discriminate.
    destruct to as [j|]; [|injection E as <-; exact K]. destruct from as [i|]; [|injection E as <-; exact K].
    match type of E with context [InternalCreateEdge ?a ?b ?c ?d ?e ?f ?g ?h ?st] => destruct (InternalCreateEdge a b c d e f g h st) as [[x st1]| |] eqn:EI end; cbn [obind] in E; try discriminate.
    injection E as <-. cbn [fst]. exact (ice_keys _ _ _ _ _ _ _ K EI).
  Qed.
  Lemma path_loop_keys w : forall n sym st st', keys_in mp st -> path_loop dbg pre has mp w sym n st = Ok st' -> keys_in mp st'.
  Proof.
    induction n as [|n IH]; intros sym st st' K; cbn [path_loop]; [intros E; injection E as <-; exact K|].
    destruct (InternalCreateEdge _ _ _ _ _ _ _ _ _) as [[x st1]| |] eqn:EI; cbn [obind]; try discriminate.
    pose proof (ice_keys _ _ _ _ _ _ _ K EI) as K1. destruct x; [apply IH; exact K1|intros E; injection E as <-; exact K1].
  Qed.
  Lemma paths_loop_keys : forall l st st', keys_in mp st -> paths_loop dbg pre has mp l st = Ok st' -> keys_in mp st'.
  Proof.
    induction l as [|[[f t] w] l IH]; intros st st' K; cbn [paths_loop]; [intros E; injection E as <-; exact K|].
    destruct (path_step _ _ _ _ _ _) as [st1| |] eqn:E; cbn [obind]; try discriminate. apply IH. unfold path_step in E.
    destruct (_ || _); [injection E as <-; exact K|]. exact (path_loop_keys _ _ _ _ _ K E).
  Qed.
  Lemma create_keys order reject branches falls st : CreateEdges dbg pre has mp order reject branches falls = Ok (Some st) -> keys_in mp st.
  Proof.
    unfold CreateEdges. destruct (branch_loop _ _ _ _ _ _) as [[[st1 ft1] d]| |] eqn:E1; cbn [obind]; try discriminate.
    destruct (reject _ _ _ _); [discriminate|]. destruct (ft_map_loop _ _ _ _) as [ft2| |]; cbn [obind]; try discriminate.
    destruct (paths_loop _ _ _ _ _ _) as [st2| |] eqn:E3; cbn [obind]; try discriminate. intros E; injection E as <-.
    eapply paths_loop_keys; [|exact E3]. eapply branch_loop_keys; [|exact E1]. intros k [].
  Qed.
End Keys.

(** * The total weight of the edges *)
Lemma count_swap {K} (R : K -> counter -> bool) (M : counter -> Z) (ks : list K) : forall cs,
  (forall c, In c cs -> 0 <= snd c) -> (forall c, In c cs -> zlen (filter (fun k => R k c) ks) <= M c) ->
  fold_right (fun k s => sum_if (R k) cs + s) 0 ks <= fold_right (fun c s => snd c * M c + s) 0 cs.
Proof.
  induction cs as [|c cs IH]; intros P H; cbn [fold_right].
  - clear. induction ks as [|k ks IH]; cbn [fold_right sum_if] in *; lia.
  - specialize (IH (fun x Hx => P x (or_intror Hx)) (fun x Hx => H x (or_intror Hx))). specialize (H c (or_introl eq_refl)). specialize (P c (or_introl eq_refl)).
    assert (E : fold_right (fun k s => sum_if (R k) (c :: cs) + s) 0 ks = snd c * zlen (filter (fun k => R k c) ks) + fold_right (fun k s => sum_if (R k) cs + s) 0 ks).
    { clear. induction ks as [|k ks IH]; cbn [fold_right sum_if filter] in *; [unfold zlen; cbn; lia|]. rewrite IH. destruct (R k c); [rewrite zlen_cons; lia|lia]. }
    rewrite E. nia.
Qed.
Lemma incl_zlen {A} (l k : list A) : NoDup l -> incl l k -> zlen l <= zlen k.
Proof. intros N I. unfold zlen. pose proof (NoDup_incl_length N I). lia. Qed.
Lemma fold_plus {K} (f g : K -> Z) ks : fold_right (fun k s => (f k + g k) + s) 0 ks = fold_right (fun k s => f k + s) 0 ks + fold_right (fun k s => g k + s) 0 ks.
Proof. induction ks as [|k ks IH]; cbn [fold_right]; lia. Qed.
