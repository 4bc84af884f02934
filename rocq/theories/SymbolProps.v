(** C07, C08: merging function profiles and attributing samples. *)
From Verif Require Import Base AssocFold SymbolModel SymbolSpec SymbolProofs AttribProofs.
From Coq Require Import Permutation.

(** C07: at every inline path, location and call target, merging adds the counts
    (as 64-bit counters) and the merged profile has exactly the nodes, locations
    and targets of the two. *)
Theorem C07_merge_adds_pointwise : forall d s, sym_ok d -> sym_ok s ->
  forall p l t,
    has_node (merge d s) p = has_node d p || has_node s p /\
    total_at (merge d s) p = (total_at d p + total_at s p) mod 2 ^ 64 /\
    head_at (merge d s) p = (head_at d p + head_at s p) mod 2 ^ 64 /\
    has_pos (merge d s) p l = has_pos d p l || has_pos s p l /\
    count_at (merge d s) p l = (count_at d p l + count_at s p l) mod 2 ^ 64 /\
    ninst_at (merge d s) p l = (ninst_at d p l + ninst_at s p l) mod 2 ^ 64 /\
    has_target (merge d s) p l t = has_target d p l t || has_target s p l t /\
    target_at (merge d s) p l t = (target_at d p l t + target_at s p l t) mod 2 ^ 64.
Proof. exact merge_pointwise. Qed.
Print Assumptions C07_merge_adds_pointwise.

(** ... the result is again a well-formed profile ... *)
Theorem C07_merge_well_formed : forall d s, sym_ok d -> sym_ok s -> sym_ok (merge d s).
Proof. intros; apply merge_ok; assumption. Qed.
Print Assumptions C07_merge_well_formed.

(** ... and the order in which profiles are merged is unobservable. *)
Theorem C07_merge_order_independent : forall l l' d,
  Permutation l l' -> Forall sym_ok l -> sym_ok d ->
  same_profile (fold_left merge l d) (fold_left merge l' d).
Proof. intros l l' d Hp Hl Hd. exact (merge_perm l l' Hp Hl d Hd). Qed.
Print Assumptions C07_merge_order_independent.

Definition ex_a : symbol :=
  Sym 3 30 0 [(4294967296, PInfo 10 1 [([102], 7); ([103], 3)])]
      [((8589934592, [104]), Sym 0 20 0 [(0, PInfo 20 1 [])] [])].
Definition ex_b : symbol :=
  Sym 1 (2 ^ 64 - 1) 0 [(4294967296, PInfo 5 1 [([103], 2 ^ 64 - 1)]); (1, PInfo 6 2 [])]
      [((8589934592, [104]), Sym 0 9 0 [(0, PInfo 9 1 [])] []); ((8589934592, [105]), sym0)].
Example C07_nonvacuous :
  sym_ok ex_a /\ sym_ok ex_b /\ count_at (merge ex_a ex_b) [(8589934592, [104])] 0 = 29 /\
  target_at (merge ex_a ex_b) [] 4294967296 [103] = 2.
Proof.
  split; [|split; [|split; vm_compute; reflexivity]]; sym_ok_tac.
Qed.

(** C08: one call of AddSourceCount.  [P] is the inline path the stack selects,
    [off] the location of its innermost entry. *)
Theorem C08_add_source_count : forall base conv n leaf outer_stack count num_inst m s,
  sm_find m n = Some s -> sym_ok s -> is_u64 count ->
  let src := leaf :: outer_stack in
  let P := stack_path base conv (rev src) in
  let off := si_offset base leaf in
  let counted := negb (conv && si_invalid leaf) in
  exists m' s',
    AddSourceCount base conv n src count num_inst m = Ok m' /\
    (* only this function object changes *)
    (forall n', sm_find m' n' = if same_object m n' n then Some s' else sm_find m n') /\
    sym_ok s' /\
    forall q l t,
      has_node s' q = has_node s q || is_prefix q P /\
      total_at s' q = (if is_prefix q P then (total_at s q + count) mod 2 ^ 64 else total_at s q) /\
      head_at s' q = head_at s q /\
      has_pos s' q l = has_pos s q l || (counted && path_eqb q P && (l =? off)) /\
      count_at s' q l =
        (if counted && path_eqb q P && (l =? off)
         then if conv then Z.max (count_at s q l) count else (count_at s q l + count) mod 2 ^ 64
         else count_at s q l) /\
      ninst_at s' q l =
        (if counted && path_eqb q P && (l =? off)
         then (ninst_at s q l + num_inst) mod 2 ^ 64 else ninst_at s q l) /\
      has_target s' q l t = has_target s q l t /\
      target_at s' q l t = target_at s q l t.
Proof.
  intros base conv n leaf rest count ni m s Hf Hs Hc src P off counted.
  assert (Hne : rev src <> []).
  { intros E. apply (f_equal (@length sinfo)) in E. rewrite rev_length in E. discriminate. }
  set (f := fun p => PInfo (if conv then Z.max (p_count p) count else add64 (p_count p) count)
                           (add64 (p_ninst p) ni) (p_targets p)).
  set (k := fun x => if counted then set_pos off f x else x).
  destruct (sm_update_spec n (on_stack_node base conv count k (rev src)) m s Hf) as (m' & Hu & _ & Hm').
  exists m', (on_stack_node base conv count k (rev src) s).
  assert (Hk : k = fun x => if conv && si_invalid leaf then x else set_pos off f x).
  { unfold k, counted. destruct (conv && si_invalid leaf); reflexivity. }
  split; [|split; [exact Hm'|split]].
  - unfold AddSourceCount, src. fold src. rewrite <- Hu. unfold f, off in Hk. rewrite Hk. reflexivity.
  - apply (osn_ok base conv count off f counted); [|exact Hs].
    intros i (I1 & I2 & I3). split; [|split]; cbn [f p_count p_ninst p_targets]; auto.
    destruct conv; auto. unfold is_u64 in *. lia.
  - intros q l t.
    destruct (osn_obs base conv count off f counted (rev src) Hne s q) as (A1 & A2 & A3 & A4).
    fold k in A1, A2, A3, A4. fold P in A1, A2, A4.
    split; [exact A1|]. split; [exact A2|]. split; [exact A3|].
    unfold has_pos, count_at, ninst_at, has_target, target_at. rewrite A4.
    destruct counted; cbn [andb]; [|rewrite orb_false_r; repeat split].
    destruct (path_eqb_spec q P) as [->|Hq]; cbn [andb]; [|rewrite orb_false_r; repeat split].
    destruct (Z.eqb_spec l off) as [->|Hl]; [|rewrite orb_false_r; repeat split].
    rewrite orb_true_r.
    destruct (pos_at s P off) as [i|] eqn:E; cbn [f p_count p_ninst p_targets pinfo0]; repeat split.
Qed.
Print Assumptions C08_add_source_count.

(** C08: one call of AddIndirectCallTarget: the target's count at the selected
    node and location is set; nothing else changes (except that empty nodes on
    the path and the location come into being). *)
Theorem C08_add_indirect_call_target : forall base orig conv n leaf outer_stack target count m s,
  sm_find m n = Some s -> sym_ok s -> is_u64 count ->
  let src := leaf :: outer_stack in
  let P := stack_path base conv (rev src) in
  let off := si_offset base leaf in
  let counted := negb (conv && si_invalid leaf) in
  exists m' s',
    AddIndirectCallTarget base orig conv n src target count m = Ok m' /\
    (forall n', sm_find m' n' = if same_object m n' n then Some s' else sm_find m n') /\
    sym_ok s' /\
    forall q l t,
      has_node s' q = has_node s q || is_prefix q P /\
      total_at s' q = total_at s q /\ head_at s' q = head_at s q /\
      has_pos s' q l = has_pos s q l || (counted && path_eqb q P && (l =? off)) /\
      count_at s' q l = count_at s q l /\ ninst_at s' q l = ninst_at s q l /\
      (counted && path_eqb q P && (l =? off) && name_eqb t (orig target) = true ->
         has_target s' q l t = true /\ target_at s' q l t = count) /\
      (counted && path_eqb q P && (l =? off) && name_eqb t (orig target) = false ->
         has_target s' q l t = has_target s q l t /\ target_at s' q l t = target_at s q l t).
Proof.
  intros base orig conv n leaf rest target count m s Hf Hs Hc src P off counted.
  assert (Hne : rev src <> []).
  { intros E. apply (f_equal (@length sinfo)) in E. rewrite rev_length in E. discriminate. }
  set (f := fun p => PInfo (p_count p) (p_ninst p) (aset name_eqb (orig target) count (p_targets p))).
  set (k := fun x => if counted then set_pos off f x else x).
  destruct (sm_update_spec n (on_stack_node base conv 0 k (rev src)) m s Hf) as (m' & Hu & _ & Hm').
  exists m', (on_stack_node base conv 0 k (rev src) s).
  assert (Hk : k = fun x => if conv && si_invalid leaf then x else set_pos off f x).
  { unfold k, counted. destruct (conv && si_invalid leaf); reflexivity. }
  assert (Htot : forall q, is_u64 (total_at s q)).
  { intros q. unfold total_at. destruct (node_at s q) eqn:E; auto.
    apply sym_ok_total. eauto using node_at_ok. }
  split; [|split; [exact Hm'|split]].
  - unfold AddIndirectCallTarget, src. fold src. rewrite <- Hu. unfold f, off in Hk. rewrite Hk. reflexivity.
  - apply (osn_ok base conv 0 off f counted); [|exact Hs].
    intros i (I1 & I2 & I3 & I4). split; [|split]; cbn [f p_count p_ninst p_targets]; auto.
    split; [apply NoDup_akeys_aset; auto|]. rewrite In_Forall_snd in *.
    intros t v Hi. apply (In_aset name_eqb name_eqb_spec) in Hi. destruct Hi as [Hi| ->]; eauto.
  - intros q l t.
    destruct (osn_obs base conv 0 off f counted (rev src) Hne s q) as (A1 & A2 & A3 & A4).
    fold k in A1, A2, A3, A4. fold P in A1, A2, A4.
    split; [exact A1|]. split; [rewrite A2, add64_0_r by auto; destruct (is_prefix q P); reflexivity|].
    split; [exact A3|].
    unfold has_pos, count_at, ninst_at, has_target, target_at. rewrite A4.
    destruct counted; cbn [andb]; [|rewrite orb_false_r; repeat split; discriminate].
    destruct (path_eqb_spec q P) as [->|Hq]; cbn [andb]; [|rewrite orb_false_r; repeat split; discriminate].
    destruct (Z.eqb_spec l off) as [->|Hl]; [|rewrite orb_false_r; repeat split; discriminate].
    rewrite orb_true_r. cbn [andb].
    destruct (pos_at s P off) as [i|] eqn:E; cbn [f p_count p_ninst p_targets pinfo0].
    + split; [reflexivity|]. split; [reflexivity|]. split; [reflexivity|].
      unfold tget. rewrite aget_aset by auto. split; intros ->; split; reflexivity.
    + split; [reflexivity|]. split; [reflexivity|]. split; [reflexivity|].
      unfold tget. rewrite aget_aset by auto. split; intros ->; split; reflexivity.
Qed.
Print Assumptions C08_add_indirect_call_target.

Definition ex_m : smap := SMap [([102], 0%nat); ([103], 0%nat); ([104], 1%nat)] [ex_a; sym0].
Definition ex_stack : list sinfo := [SInfo [120] 10 12 3; SInfo [104] 5 8 0; SInfo [102] 100 101 0].
(** Three-deep stack: f inlines h at line 1, h inlines x at line 3; x+2 disc 3. *)
Example C08_nonvacuous :
  sm_find ex_m [102] = Some ex_a /\
  stack_path (fun d => d) true (rev ex_stack) = [(4294967296, [104]); (12884901888, [120])] /\
  match AddSourceCount (fun d => d) true [102] ex_stack 9 1 ex_m with
  | Ok m' => option_map (fun s => (count_at s [(4294967296, [104]); (12884901888, [120])] 8589934595,
                                   total_at s [], total_at s [(4294967296, [104])])) (sm_find m' [103])
  | _ => None
  end = Some (9, 39, 9).
Proof. repeat split; vm_compute; reflexivity. Qed.

(** Consequence of the stop rule worth knowing: if an outer stack entry has no
    line information, the innermost function's line offset is recorded at the
    enclosing function's node (a location of another function). *)
Theorem C08_leaf_in_its_own_function_refuted :
  exists base src count m m' s',
    AddSourceCount base true [102] src count 1 m = Ok m' /\ sm_find m' [102] = Some s' /\
    (* the innermost frame is function x, yet the count lands in function f itself *)
    option_map si_func (hd_error src) = Some [120] /\ count_at s' [] 8589934595 = count /\ 0 < count.
Proof.
  exists (fun d => d), [SInfo [120] 10 12 3; SInfo [102] 0 0 0], 9, ex_m.
  eexists. eexists. repeat split; vm_compute; reflexivity.
Qed.
Print Assumptions C08_leaf_in_its_own_function_refuted.
