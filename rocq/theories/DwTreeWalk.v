(** Reading the entries: the objects the handler makes are those of the forest. *)
From Coq Require Import Sorted Permutation.
From Verif Require Import Base ISort RangeMapModel DwLineModel DwTreeModel DwTreeSpec.

(** *** SortAndMerge *)
Lemma sorted_perm_unique {A} (R : A -> A -> Prop) (l l' : list A) : (forall x y, R x y -> R y x -> x = y) ->
  StronglySorted R l -> StronglySorted R l' -> Permutation l l' -> l = l'.
Proof.
  intros AS. revert l'. induction l as [|x l IH]; intros l' S1 S2 P; [apply Permutation_nil in P; congruence|]. destruct l' as [|y l']; [apply Permutation_sym, Permutation_nil in P; discriminate|].
  inversion S1 as [|? ? S1' F1]; subst. inversion S2 as [|? ? S2' F2]; subst. rewrite Forall_forall in F1, F2.
  assert (E : x = y).
  { assert (I1 : In x (y :: l')) by (apply (Permutation_in x P); left; reflexivity). assert (I2 : In y (x :: l)) by (apply (Permutation_in y (Permutation_sym P)); left; reflexivity).
    destruct I1 as [->|I1]; [reflexivity|]. destruct I2 as [->|I2]; [reflexivity|]. apply AS; [apply F1; exact I2|apply F2; exact I1]. }
  subst y. f_equal. apply IH; [exact S1'|exact S2'|]. apply Permutation_cons_inv in P. exact P.
Qed.
Lemma range_le_iff a b : range_le a b = true <-> fst a < fst b \/ (fst a = fst b /\ snd a <= snd b).
Proof. unfold range_le. destruct (Z.ltb_spec (fst a) (fst b)), (Z.eqb_spec (fst a) (fst b)), (Z.leb_spec (snd a) (snd b)); cbn [orb andb]; split; intros Q; try reflexivity; try discriminate; lia. Qed.
Lemma isort_ranges l : StronglySorted (fun a b => range_le a b = true) (isort range_le l).
Proof.
  apply (isort_sorted range_le).
  - intros x y. rewrite !range_le_iff. lia.
  - intros x y z. rewrite !range_le_iff. lia.
Qed.
Lemma sorted_ranges rs : StronglySorted (fun r r' : Z * Z => snd r <= fst r') rs -> Forall (fun r => fst r < snd r) rs -> StronglySorted (fun a b => range_le a b = true) rs.
Proof.
  induction 1 as [|r rs S IH F]; intros FA; [constructor|]. inversion FA as [|? ? F1 F2]; subst. constructor; [apply IH; exact F2|]. rewrite Forall_forall in *. intros q Hq. apply range_le_iff. specialize (F q Hq). left. lia.
Qed.
Lemma merge_id rs : forall r, StronglySorted (fun r r' : Z * Z => snd r <= fst r') (r :: rs) -> merge_from r rs = r :: rs.
Proof.
  induction rs as [|q rs IH]; intros r S; [reflexivity|]. cbn [merge_from]. inversion S as [|? ? S1 F]; subst. inversion F as [|? ? F1 F2]; subst. destruct (Z.leb_spec (snd r) (fst q)); [|lia]. f_equal. apply IH. exact S1.
Qed.
Lemma SortAndMerge_sorted l rs : Permutation l rs -> StronglySorted (fun r r' : Z * Z => snd r <= fst r') rs -> Forall (fun r => fst r < snd r) rs -> SortAndMerge l = rs.
Proof.
  intros P S F. unfold SortAndMerge. assert (E : isort range_le l = rs).
  { apply (sorted_perm_unique (fun a b => range_le a b = true)).
    - intros [a b] [c d]. rewrite !range_le_iff. cbn [fst snd]. intros. f_equal; lia.
    - apply isort_ranges.
    - apply sorted_ranges; assumption.
    - apply Permutation_trans with l; [apply Permutation_sym, isort_perm|exact P]. }
  rewrite E. destruct rs as [|r rs]; [reflexivity|]. apply merge_id. exact S.
Qed.
(** in general: the same addresses, sorted, not overlapping *)
Lemma merge_spec l : forall r, StronglySorted (fun a b => range_le a b = true) (r :: l) -> Forall (fun q => fst q <= snd q) (r :: l) ->
  (forall x, (exists q, In q (merge_from r l) /\ fst q <= x < snd q) <-> (exists q, In q (r :: l) /\ fst q <= x < snd q)) /\
  StronglySorted (fun q q' => snd q <= fst q') (merge_from r l) /\ Forall (fun q => fst r <= fst q <= snd q) (merge_from r l).
Proof.
  induction l as [|q l IH]; intros r S F; cbn [merge_from].
  - split; [tauto|]. split; [repeat constructor|]. inversion F; subst. constructor; [lia|constructor].
  - inversion S as [|? ? S1 FR]; subst. inversion F as [|? ? F1 F2]; subst. inversion FR as [|? ? R1 R2]; subst. apply range_le_iff in R1. destruct (Z.leb_spec (snd r) (fst q)).
    + destruct (IH q S1 F2) as (A & B & C). split; [|split].
      * intros x. split; intros (z & [Hz|Hz] & Z2).
        -- subst z. exists r. split; [left; reflexivity|exact Z2].
        -- destruct (proj1 (A x) (ex_intro _ z (conj Hz Z2))) as (z' & Z1 & Z3). exists z'. split; [right; exact Z1|exact Z3].
        -- subst z. exists r. split; [left; reflexivity|exact Z2].
        -- destruct (proj2 (A x) (ex_intro _ z (conj Hz Z2))) as (z' & Z1 & Z3). exists z'. split; [right; exact Z1|exact Z3].
      * constructor; [exact B|]. eapply Forall_impl; [|exact C]. cbn beta. intros z Hz. lia.
      * constructor; [lia|]. eapply Forall_impl; [|exact C]. cbn beta. intros z Hz. lia.
    + inversion F2 as [|? ? F3 F4]; subst. inversion S1 as [|? ? S2 FQ]; subst. destruct (IH (fst r, Z.max (snd q) (snd r))) as (A & B & C).
      * constructor; [exact S2|]. rewrite Forall_forall in *. intros z Hz. specialize (FQ z Hz). specialize (R2 z Hz). apply range_le_iff. apply range_le_iff in FQ, R2. cbn [fst snd] in *. lia.
      * constructor; [cbn [fst snd]; lia|exact F4].
      * cbn [fst] in C. split; [|split; [exact B|exact C]]. intros x. rewrite A. split; intros (z & [Hz|Hz] & Z2).
        -- subst z. cbn [fst snd] in Z2. destruct (Z_lt_ge_dec x (snd r)); [exists r; split; [left; reflexivity|lia]|exists q; split; [right; left; reflexivity|lia]].
        -- exists z. split; [right; right; exact Hz|exact Z2].
        -- subst z. eexists. split; [left; reflexivity|cbn [fst snd]; lia].
        -- destruct Hz as [Hz|Hz]; [subst z; eexists; split; [left; reflexivity|cbn [fst snd]; lia]|exists z; split; [right; exact Hz|exact Z2]].
Qed.
Lemma SortAndMerge_spec l : Forall (fun q => fst q <= snd q) l ->
  (forall x, (exists q, In q (SortAndMerge l) /\ fst q <= x < snd q) <-> (exists q, In q l /\ fst q <= x < snd q)) /\ StronglySorted (fun q q' => snd q <= fst q') (SortAndMerge l).
Proof.
  intros F. unfold SortAndMerge. pose proof (isort_ranges l) as S. pose proof (isort_perm range_le l) as P. assert (F' : Forall (fun q => fst q <= snd q) (isort range_le l)) by (eapply Permutation_Forall; [exact P|exact F]).
  destruct (isort range_le l) as [|r l'] eqn:E.
  - apply Permutation_sym, Permutation_nil in P. subst l. split; [tauto|constructor].
  - destruct (merge_spec l' r S F') as (A & B & _). split; [|exact B]. intros x. rewrite A. split; intros (z & Hz & Z2); exists z; (split; [|exact Z2]); [apply (Permutation_in z (Permutation_sym P)); exact Hz|apply (Permutation_in z P); exact Hz].
Qed.

(** *** Attributes *)
Definition root_used (i : info) : bool := existsb (fun r => negb (fst r =? 0)) (i_ranges i).
Definition sub_of (used : bool) (parent : option nat) (n : node) : sub :=
  {| s_offset := n_offset n; s_parent := parent; s_name := i_name (n_info n); s_ranges := i_ranges (n_info n); s_inlined := n_inlined n; s_comp := Some (n_comp n);
     s_dir := option_map fst (i_call (n_info n)); s_file := option_map snd (i_call (n_info n)); s_line := i_line (n_info n); s_discr := i_discr (n_info n);
     s_origin := i_origin (n_info n); s_spec := i_spec (n_info n); s_used := used |}.

Section Attr.
Context (co : Z) (names : cu) (inl top : bool).
(** the attributes that are no addresses *)
Definition pure (s : sub) (a : attr) : sub :=
  match a with
  | ALinkageName n => set_name n s
  | AName n => match s_name s with [] => set_name n s | _ => s end
  | ACallFile _ n => set_call_file names n s
  | ACallLine _ n => set_callsite_line (u32 n) s
  | ADiscriminator n => set_callsite_discr (u32 n) s
  | AAbstractOrigin abs n => set_abstract_origin (if abs then n else u64 (co + n)) s
  | ASpecification abs n => set_specification (if abs then n else u64 (co + n)) s
  | ADeclLine implicit n => if implicit then s else if inl then s else set_callsite_line (u32 n) s
  | _ => s
  end.
Definition pc (ru : list (Z * Z) * bool) (a : attr) : outcome (list (Z * Z) * bool) :=
  let '(rs, used) := ru in
  match a with
  | ALowPc v => match rs with [] => Ok ([(v, 0)], used || (top && negb (v =? 0))) | [(_, h)] => Ok ([(v, h)], used || (top && negb (v =? 0))) | _ => Abort end
  | AHighPc v off => match rs with [] => Ok ([(0, v)], used) | [(l, _)] => Ok ([(l, if off then u64 (l + v) else v)], used) | _ => Abort end
  | ARanges l => match rs with [] => Ok (SortAndMerge l, used || (top && existsb (fun r => negb (fst r =? 0)) l)) | _ => Abort end
  | _ => Ok (rs, used)
  end.
Definition with_pc (s : sub) (ru : list (Z * Z) * bool) : sub :=
  {| s_offset := s_offset s; s_parent := s_parent s; s_name := s_name s; s_ranges := fst ru; s_inlined := s_inlined s; s_comp := s_comp s; s_dir := s_dir s; s_file := s_file s; s_line := s_line s; s_discr := s_discr s; s_origin := s_origin s; s_spec := s_spec s; s_used := snd ru |}.
Fixpoint pc_all (l : list attr) (ru : list (Z * Z) * bool) : outcome (list (Z * Z) * bool) := match l with [] => Ok ru | a :: l' => let! ru := pc ru a in pc_all l' ru end.

Lemma update_last pre s s' : update (length pre) (fun _ => s') (pre ++ [s]) = pre ++ [s'].
Proof. induction pre as [|x pre IH]; [reflexivity|]. cbn [length app update]. f_equal. exact IH. Qed.
Lemma obj_last pre s o b d or_ c : obj (length pre) {| objs := pre ++ [s]; by_offset := o; h_stack := b; h_dies := d; order := or_; comp_dir := c |} = s.
Proof. unfold obj. cbn [objs]. rewrite app_nth2 by lia. rewrite Nat.sub_diag. reflexivity. Qed.

Definition with_objs (l : list sub) (st : state) : state := {| objs := l; by_offset := by_offset st; h_stack := h_stack st; h_dies := h_dies st; order := order st; comp_dir := comp_dir st |}.
Lemma attribute_read pre rest t dies a s ru st : h_stack st = length pre :: rest -> h_dies st = t :: dies -> (t = if inl then TagInlined else TagSubprogram) -> (top = match rest with [] => true | _ => false end) ->
  is_comp a = false -> objs st = pre ++ [with_pc s ru] ->
  ProcessAttribute co names a st = let! ru := pc ru a in Ok (with_objs (pre ++ [with_pc (pure s a) ru]) st).
Proof.
  intros HS HD HT TP NC HO. destruct st as [ob bo hs hd od cd]. cbn [objs h_stack h_dies] in *. subst hs hd ob. unfold ProcessAttribute. cbn [h_stack h_dies].
  assert (SO : forall s', set_obj (length pre) s' {| objs := pre ++ [with_pc s ru]; by_offset := bo; h_stack := length pre :: rest; h_dies := t :: dies; order := od; comp_dir := cd |} =
    with_objs (pre ++ [s']) {| objs := pre ++ [with_pc s ru]; by_offset := bo; h_stack := length pre :: rest; h_dies := t :: dies; order := od; comp_dir := cd |}) by (intros s'; unfold set_obj, with_objs; cbn; rewrite update_last; reflexivity).
  rewrite obj_last. destruct ru as [rs us]. rewrite <- TP.
  destruct a; try discriminate NC; try (rewrite SO; cbn [obind pc pure with_pc s_name fst snd]; reflexivity).
  - rewrite SO. cbn [obind pc pure with_pc s_name fst snd]. destruct (s_name s); reflexivity.
  - assert (E : set_call_file names n (with_pc s (rs, us)) = with_pc (set_call_file names n s) (rs, us)).
    { unfold set_call_file. destruct ((n =? 0) || (zlen (files names) <=? u64 n)); [reflexivity|]. destruct (nth (Z.to_nat n) (files names) (0, [])) as [d f]. destruct (u64 d <? zlen (dirs names)); reflexivity. }
    destruct implicit; rewrite E, SO; reflexivity.
  - destruct implicit; rewrite SO; reflexivity.
  - unfold SetSingletonRangeLow. cbn [with_pc s_ranges fst pc]. destruct rs as [|[l h] [|]]; cbn [obind]; try reflexivity; rewrite SO; destruct (top && negb (a =? 0)); cbn [orb]; rewrite ?orb_true_r, ?orb_false_r; reflexivity.
  - unfold SetSingletonRangeHigh. cbn [with_pc s_ranges fst pc]. destruct rs as [|[l h] [|]]; cbn [obind]; try reflexivity; rewrite SO; reflexivity.
  - cbn [with_pc s_ranges fst pc]. destruct rs; [|reflexivity]. rewrite SO. cbn [obind]. destruct (top && existsb (fun r => negb (fst r =? 0)) l); rewrite ?orb_true_r, ?orb_false_r; reflexivity.
  - destruct implicit; [cbn [obind pc pure]; unfold with_objs; cbn; reflexivity|]. subst t. cbn [obind pc pure]. destruct inl; [unfold with_objs; cbn; reflexivity|]. rewrite SO. reflexivity.
Qed.
Lemma with_objs_twice l l' st : with_objs l (with_objs l' st) = with_objs l st.
Proof. reflexivity. Qed.
Lemma attributes_read attrs : forall pre rest t dies s ru ru' st, h_stack st = length pre :: rest -> h_dies st = t :: dies -> (t = if inl then TagInlined else TagSubprogram) -> (top = match rest with [] => true | _ => false end) ->
  existsb is_comp attrs = false -> objs st = pre ++ [with_pc s ru] -> pc_all attrs ru = Ok ru' ->
  ProcessAttributes co names attrs st = Ok (with_objs (pre ++ [with_pc (fold_left pure attrs s) ru']) st).
Proof.
  induction attrs as [|a attrs IH]; intros pre rest t dies s ru ru' st HS HD HT TP NC HO PC; cbn [ProcessAttributes fold_left pc_all existsb] in *.
  - injection PC as ->. rewrite <- HO. destruct st; reflexivity.
  - apply orb_false_iff in NC. destruct NC as (NC1 & NC2). rewrite (attribute_read pre rest t dies a s ru st HS HD HT TP NC1 HO). destruct (pc ru a) as [ru1| |] eqn:E; [|discriminate PC|discriminate PC]. cbn [obind] in *.
    rewrite (IH pre rest t dies (pure s a) ru1 ru' (with_objs (pre ++ [with_pc (pure s a) ru1]) st)); [reflexivity|exact HS|exact HD|exact HT|exact TP|exact NC2|reflexivity|exact PC].
Qed.

(** the fields *)
Lemma field_kept {X} (F : sub -> X) (same : attr -> bool) l : (forall s a, same a = false -> F (pure s a) = F s) -> existsb same l = false -> forall s, F (fold_left pure l s) = F s.
Proof.
  intros K. induction l as [|a l IH]; intros E s; cbn [fold_left existsb] in *; [reflexivity|]. apply orb_false_iff in E. destruct E as (E1 & E2). rewrite IH by exact E2. apply K. exact E1.
Qed.
Lemma existsb_app_false {A} (f : A -> bool) a b : existsb f (a ++ b) = false -> existsb f a = false /\ existsb f b = false.
Proof. rewrite existsb_app. apply orb_false_iff. Qed.
Lemma field_only {X} (F : sub -> X) (same : attr -> bool) attrs a : (forall s a, same a = false -> F (pure s a) = F s) -> only attrs a same -> forall s v, (forall s', F s' = F s -> F (pure s' a) = v) -> F (fold_left pure attrs s) = v.
Proof.
  intros K (l1 & l2 & -> & E) s v V. apply existsb_app_false in E. destruct E as (E1 & E2). rewrite fold_left_app. cbn [fold_left]. rewrite (field_kept F same l2 K E2). apply V. apply (field_kept F same l1 K E1).
Qed.
Lemma call_kept (s : sub) n : s_name (set_call_file names n s) = s_name s /\ s_line (set_call_file names n s) = s_line s /\ s_discr (set_call_file names n s) = s_discr s /\ s_origin (set_call_file names n s) = s_origin s /\ s_spec (set_call_file names n s) = s_spec s /\
  s_offset (set_call_file names n s) = s_offset s /\ s_parent (set_call_file names n s) = s_parent s /\ s_inlined (set_call_file names n s) = s_inlined s /\ s_comp (set_call_file names n s) = s_comp s.
Proof.
  unfold set_call_file. destruct ((n =? 0) || (zlen (files names) <=? u64 n)); [repeat split|]. destruct (nth (Z.to_nat n) (files names) (0, [])) as [d f]. destruct (u64 d <? zlen (dirs names)); repeat split.
Qed.
Lemma none_kept {X} (F : sub -> X) attrs : (forall s a, F (pure s a) = F s) -> forall s, F (fold_left pure attrs s) = F s.
Proof. intros K s. revert s. induction attrs as [|a l IH]; intros s; cbn [fold_left]; [reflexivity|]. rewrite IH. apply K. Qed.
Lemma pc_none l ru : existsb is_pc l = false -> pc_all l ru = Ok ru.
Proof.
  revert ru. induction l as [|a l IH]; intros ru E; cbn [pc_all existsb] in *; [reflexivity|]. apply orb_false_iff in E. destruct E as (E1 & E2). destruct ru as [rs u]. destruct a; try discriminate E1; cbn [pc obind]; apply IH; exact E2.
Qed.
Lemma pc_app a b ru : pc_all (a ++ b) ru = let! ru := pc_all a ru in pc_all b ru.
Proof. revert ru. induction a as [|x a IH]; intros ru; cbn [app pc_all obind]; [reflexivity|]. destruct (pc ru x); cbn [obind]; [apply IH|reflexivity|reflexivity]. Qed.
Lemma pc_read attrs rs : has_ranges attrs rs -> pc_all attrs ([], false) = Ok (rs, top && existsb (fun r => negb (fst r =? 0)) rs).
Proof.
  intros [(A & ->)|[(l & (l1 & l2 & -> & E) & P & S & F)|(l1 & l2 & l3 & lo & h & off & -> & E & -> & B)]].
  - rewrite pc_none by exact A. cbn [existsb]. rewrite andb_false_r. reflexivity.
  - apply existsb_app_false in E. destruct E as (E1 & E2). rewrite pc_app, pc_none by exact E1. cbn [obind pc_all pc]. rewrite pc_none by exact E2. rewrite (SortAndMerge_sorted l rs P S F). cbn [orb]. do 3 f_equal.
    clear - P. induction P; cbn [existsb]; try congruence. rewrite !orb_assoc. f_equal. apply orb_comm.
  - apply existsb_app_false in E. destruct E as (E1 & E). apply existsb_app_false in E. destruct E as (E2 & E3). rewrite pc_app, pc_none by exact E1. cbn [obind pc_all pc]. rewrite pc_app, pc_none by exact E2. cbn [obind pc_all pc]. rewrite pc_none by exact E3. cbn [existsb fst]. rewrite orb_false_r. cbn [orb]. do 4 f_equal. destruct off; [|reflexivity]. unfold u64, w64. apply Z.mod_small. lia.
Qed.
Lemma nth_error_nth' {A} (l : list A) n x d : nth_error l n = Some x -> nth n l d = x /\ (n < length l)%nat.
Proof. intros H. split; [apply nth_error_nth; exact H|]. apply nth_error_Some. congruence. Qed.
Lemma sub_eq (a b : sub) : s_offset a = s_offset b -> s_parent a = s_parent b -> s_name a = s_name b -> s_ranges a = s_ranges b -> s_inlined a = s_inlined b -> s_comp a = s_comp b -> s_dir a = s_dir b -> s_file a = s_file b ->
  s_line a = s_line b -> s_discr a = s_discr b -> s_origin a = s_origin b -> s_spec a = s_spec b -> s_used a = s_used b -> a = b.
Proof. destruct a, b. cbn. intros. subst. reflexivity. Qed.
Lemma pure_read attrs off parent comp i : means co names inl attrs i -> forall u,
  with_pc (fold_left pure attrs (new_sub off parent inl (Some comp))) (i_ranges i, u) = sub_of u parent {| n_offset := off; n_inlined := inl; n_comp := comp; n_info := i |}.
Proof.
  intros (_ & NM & _ & LN & DC & OG & SP & CL & BL & BD & BO & BS) u. set (s0 := new_sub off parent inl (Some comp)).
  apply sub_eq; cbn [with_pc sub_of s_offset s_parent s_name s_ranges s_inlined s_comp s_dir s_file s_line s_discr s_origin s_spec s_used fst snd n_offset n_inlined n_comp n_info]; try reflexivity.
  - apply (none_kept s_offset attrs). intros s a. destruct a; cbn [pure]; try reflexivity; try (apply call_kept); [destruct (s_name s); reflexivity|destruct implicit, inl; reflexivity].
  - apply (none_kept s_parent attrs). intros s a. destruct a; cbn [pure]; try reflexivity; try (apply call_kept); [destruct (s_name s); reflexivity|destruct implicit, inl; reflexivity].
  - destruct NM as [(ON & NE)|[(AB & ON)|(AB & AB2 & E)]].
    + destruct ON as (l1 & l2 & -> & E). apply existsb_app_false in E. destruct E as (_ & E2). rewrite fold_left_app. cbn [fold_left pure]. generalize (fold_left pure l1 s0). intros s.
      assert (G : forall l s, existsb is_linkage l = false -> s_name s = i_name i -> s_name (fold_left pure l s) = i_name i).
      { induction l as [|a l IH]; intros s1 El N; cbn [fold_left existsb] in *; [exact N|]. apply orb_false_iff in El. destruct El as (El1 & El2). apply IH; [exact El2|]. destruct a; try discriminate El1; cbn [pure]; try exact N.
        - rewrite N. destruct (i_name i); [congruence|exact N].
        - rewrite (proj1 (call_kept s1 n)). exact N.
        - destruct implicit, inl; exact N. }
      apply G; [exact E2|reflexivity].
    + destruct ON as (l1 & l2 & -> & E). apply existsb_app_false in E. destruct E as (E1 & E2). unfold absent in AB. rewrite existsb_app in AB. apply orb_false_iff in AB. destruct AB as (AB1 & AB2). cbn [existsb is_linkage orb] in AB2.
      assert (K : forall l s, existsb is_linkage l = false -> existsb is_aname l = false -> s_name (fold_left pure l s) = s_name s).
      { intros l. intros s L1 L2. apply (field_kept s_name (fun a => is_linkage a || is_aname a)).
        - intros s1 a E. destruct a; try discriminate E; cbn [pure]; try reflexivity; [apply call_kept|destruct implicit, inl; reflexivity].
        - clear - L1 L2. induction l as [|a l IH]; [reflexivity|]. cbn [existsb] in *. apply orb_false_iff in L1, L2. destruct L1 as (-> & L1), L2 as (-> & L2). cbn [orb]. apply IH; assumption. }
      rewrite fold_left_app. cbn [fold_left]. rewrite K by assumption. cbn [pure]. rewrite (K l1 s0) by assumption. reflexivity.
    + rewrite E. apply (field_kept s_name (fun a => is_linkage a || is_aname a)).
      * intros s1 a E1. destruct a; try discriminate E1; cbn [pure]; try reflexivity; [apply call_kept|destruct implicit, inl; reflexivity].
      * unfold absent in *. clear - AB AB2. induction attrs as [|a l IH]; [reflexivity|]. cbn [existsb] in *. apply orb_false_iff in AB, AB2. destruct AB as (-> & L1), AB2 as (-> & L2). cbn [orb]. apply IH; assumption.
  - apply (none_kept s_inlined attrs). intros s a. destruct a; cbn [pure]; try reflexivity; try (apply call_kept); [destruct (s_name s); reflexivity|destruct implicit, inl; reflexivity].
  - apply (none_kept s_comp attrs). intros s a. destruct a; cbn [pure]; try reflexivity; try (apply call_kept); [destruct (s_name s); reflexivity|destruct implicit, inl; reflexivity].
  - assert (K : forall s a, is_call_file a = false -> s_dir (pure s a) = s_dir s) by (intros s a E; destruct a; try discriminate E; cbn [pure]; try reflexivity; [destruct (s_name s); reflexivity|destruct implicit, inl; reflexivity]).
    destruct CL as [(AB & ->)|(im & n & d & f & dir & ON & B & N1 & B2 & N2 & ->)]; [apply (field_kept s_dir _ attrs K AB s0)|]. apply (field_only s_dir _ attrs _ K ON s0). intros s' _. cbn [pure].
    destruct (nth_error_nth' _ _ _ (0, []) N1) as (M1 & L1). destruct (nth_error_nth' _ _ _ [] N2) as (M2 & L2). unfold set_call_file. assert (U : u64 n = n) by (unfold u64, w64; apply Z.mod_small; lia). assert (UD : u64 d = d) by (unfold u64, w64; apply Z.mod_small; lia). rewrite U. destruct (Z.eqb_spec n 0); [lia|]. destruct (Z.leb_spec (zlen (files names)) n); [unfold zlen in *; lia|]. cbn [orb]. rewrite M1, UD. destruct (Z.ltb_spec d (zlen (dirs names))); [|unfold zlen in *; lia]. cbn. rewrite M2. reflexivity.
  - assert (K : forall s a, is_call_file a = false -> s_file (pure s a) = s_file s) by (intros s a E; destruct a; try discriminate E; cbn [pure]; try reflexivity; [destruct (s_name s); reflexivity|destruct implicit, inl; reflexivity]).
    destruct CL as [(AB & ->)|(im & n & d & f & dir & ON & B & N1 & B2 & N2 & ->)]; [apply (field_kept s_file _ attrs K AB s0)|]. apply (field_only s_file _ attrs _ K ON s0). intros s' _. cbn [pure].
    destruct (nth_error_nth' _ _ _ (0, []) N1) as (M1 & L1). unfold set_call_file. assert (U : u64 n = n) by (unfold u64, w64; apply Z.mod_small; lia). rewrite U. destruct (Z.eqb_spec n 0); [lia|]. destruct (Z.leb_spec (zlen (files names)) n); [unfold zlen in *; lia|]. cbn [orb]. rewrite M1. destruct (u64 d <? zlen (dirs names)); reflexivity.
  - assert (U32 : u32 (i_line i) = i_line i) by (unfold u32, w32; apply Z.mod_small; lia). unfold has_line in LN. destruct inl eqn:EI.
    + assert (K : forall s a, is_call_line a = false -> s_line (pure s a) = s_line s) by (intros s a E; destruct a; try discriminate E; cbn [pure]; try reflexivity; [destruct (s_name s); reflexivity|apply call_kept|rewrite EI; destruct implicit; reflexivity]).
      destruct LN as [(im & ON)|(AB & ->)]; [|apply (field_kept s_line _ attrs K AB s0)]. apply (field_only s_line _ attrs _ K ON s0). intros s' _. cbn. exact U32.
    + assert (K : forall s a, is_call_line a || is_decl_line a = false -> s_line (pure s a) = s_line s) by (intros s a E; destruct a; try discriminate E; cbn [pure]; try reflexivity; [destruct (s_name s); reflexivity|apply call_kept]).
      destruct LN as (AB & [ON|(AB2 & ->)]).
      * destruct ON as (l1 & l2 & -> & E). unfold absent in AB. rewrite existsb_app in AB. cbn [existsb is_call_line orb] in AB. apply orb_false_iff in AB. destruct AB as (A1 & A2). apply existsb_app_false in E. destruct E as (E1 & E2).
        assert (J : forall l, existsb is_call_line l = false -> existsb is_decl_line l = false -> existsb (fun a => is_call_line a || is_decl_line a) l = false).
        { clear. induction l as [|a l IH]; [reflexivity|]. cbn [existsb]. intros L1 L2. apply orb_false_iff in L1, L2. destruct L1 as (-> & L1), L2 as (-> & L2). cbn [orb]. apply IH; assumption. }
        rewrite fold_left_app. cbn [fold_left]. rewrite (field_kept s_line _ l2 K (J l2 A2 E2)). cbn [pure]. rewrite EI. cbn. exact U32.
      * apply (field_kept s_line _ attrs K). unfold absent in *. clear - AB AB2. induction attrs as [|a l IH]; [reflexivity|]. cbn [existsb] in *. apply orb_false_iff in AB, AB2. destruct AB as (-> & L1), AB2 as (-> & L2). cbn [orb]. apply IH; assumption.
  - assert (K : forall s a, is_discr a = false -> s_discr (pure s a) = s_discr s) by (intros s a E; destruct a; try discriminate E; cbn [pure]; try reflexivity; [destruct (s_name s); reflexivity|apply call_kept|destruct implicit, inl; reflexivity]).
    destruct DC as [ON|(AB & ->)]; [|apply (field_kept s_discr _ attrs K AB s0)]. apply (field_only s_discr _ attrs _ K ON s0). intros s' _. cbn. unfold u32, w32. apply Z.mod_small. lia.
  - assert (K : forall s a, is_origin a = false -> s_origin (pure s a) = s_origin s) by (intros s a E; destruct a; try discriminate E; cbn [pure]; try reflexivity; [destruct (s_name s); reflexivity|apply call_kept|destruct implicit, inl; reflexivity]).
    destruct OG as [(abs & n & ON & E)|(AB & E)]; [|rewrite E; apply (field_kept s_origin _ attrs K AB s0)]. apply (field_only s_origin _ attrs _ K ON s0). intros s' _. cbn. rewrite E in BO |- *. unfold reference in *. destruct abs; [reflexivity|]. unfold u64, w64. apply Z.mod_small. lia.
  - assert (K : forall s a, is_spec a = false -> s_spec (pure s a) = s_spec s) by (intros s a E; destruct a; try discriminate E; cbn [pure]; try reflexivity; [destruct (s_name s); reflexivity|apply call_kept|destruct implicit, inl; reflexivity]).
    destruct SP as [(abs & n & ON & E)|(AB & E)]; [|rewrite E; apply (field_kept s_spec _ attrs K AB s0)]. apply (field_only s_spec _ attrs _ K ON s0). intros s' _. cbn. rewrite E in BS |- *. unfold reference in *. destruct abs; [reflexivity|]. unfold u64, w64. apply Z.mod_small. lia.
Qed.
End Attr.

(** *** The walk *)
Fixpoint size (f : forest) : nat := match f with FNil => O | FCons _ k r => S (size k + size r) end.
Definition used_of (ou : option bool) (n : node) : bool := match ou with Some u => u | None => root_used (n_info n) end.
Fixpoint objects (ou : option bool) (parent : option nat) (base : nat) (f : forest) : list sub :=
  match f with
  | FNil => []
  | FCons n k r => sub_of (used_of ou n) parent n :: objects (Some (used_of ou n)) (Some base) (S base) k ++ objects ou parent (S base + size k) r
  end.
Fixpoint post (ou : option bool) (base : nat) (f : forest) : list nat :=
  match f with
  | FNil => []
  | FCons n k r => post (Some (used_of ou n)) (S base) k ++ (if used_of ou n then [base] else []) ++ post ou (S base + size k) r
  end.
Fixpoint offs (base : nat) (f : forest) : list (Z * nat) :=
  match f with FNil => [] | FCons n k r => (n_offset n, base) :: offs (S base) k ++ offs (S base + size k) r end.
Definition add_offs (l : list (Z * nat)) (m : list (Z * nat)) : list (Z * nat) := fold_left (fun m p => insert_new (fst p) (snd p) m) l m.

Lemma size_objects ou parent base f : length (objects ou parent base f) = size f.
Proof. revert ou parent base. induction f as [|n k IHk r IHr]; intros ou parent base; cbn [objects size]; [reflexivity|]. cbn [length]. rewrite app_length, IHk, IHr. reflexivity. Qed.
Lemma size_fapp a b : size (fapp a b) = (size a + size b)%nat.
Proof. induction a as [|n k IHk r IHr]; cbn [fapp size]; [reflexivity|]. rewrite IHr. lia. Qed.
Lemma objects_fapp ou parent base a b : objects ou parent base (fapp a b) = objects ou parent base a ++ objects ou parent (base + size a) b.
Proof.
  revert base. induction a as [|n k IHk r IHr]; intros base; cbn [fapp objects size]; [f_equal; rewrite Nat.add_0_r; reflexivity|]. rewrite IHr. cbn [app]. rewrite <- app_assoc. do 4 f_equal. lia.
Qed.
Lemma post_fapp ou base a b : post ou base (fapp a b) = post ou base a ++ post ou (base + size a) b.
Proof.
  revert base. induction a as [|n k IHk r IHr]; intros base; cbn [fapp post size]; [rewrite Nat.add_0_r; reflexivity|]. rewrite IHr, <- !app_assoc. do 4 f_equal. lia.
Qed.
Lemma offs_fapp base a b : offs base (fapp a b) = offs base a ++ offs (base + size a) b.
Proof.
  revert base. induction a as [|n k IHk r IHr]; intros base; cbn [fapp offs size]; [rewrite Nat.add_0_r; reflexivity|]. rewrite IHr. cbn [app]. rewrite <- app_assoc. do 4 f_equal. lia.
Qed.
Lemma add_offs_app a b m : add_offs (a ++ b) m = add_offs b (add_offs a m).
Proof. apply fold_left_app. Qed.

Fixpoint process_list (co : Z) (names : cu) (l : list die) (st : state) : outcome state :=
  match l with [] => Ok st | c :: l' => let! st := process co names c st in process_list co names l' st end.
Lemma process_unfold co names offset t attrs children st : process co names (Die offset t attrs children) st =
  let '(wanted, st) := StartDIE offset t st in
  let! st := (if wanted then ProcessAttributes co names attrs st else Ok st) in
  let! st := process_list co names children st in EndDIE st.
Proof.
  cbn [process]. destruct (StartDIE offset t st) as [w s1]. destruct (if w then ProcessAttributes co names attrs s1 else Ok s1) as [s2| |]; cbn [obind]; try reflexivity.
  enough (E : forall l s, (fix all (l : list die) (st : state) : outcome state := match l with [] => Ok st | c :: l' => let! st := process co names c st in all l' st end) l s = process_list co names l s) by (rewrite E; reflexivity).
  clear. induction l as [|c l IH]; intros s; [reflexivity|]. cbn [process_list]. destruct (process co names c s); cbn [obind]; [apply IH|reflexivity|reflexivity].
Qed.
Definition ou_of (st : state) : option bool := match h_stack st with [] => None | l => Some (s_used (obj (last l O) st)) end.
Definition walked (f : forest) (st : state) : state :=
  {| objs := objs st ++ objects (ou_of st) (hd_error (h_stack st)) (length (objs st)) f; by_offset := add_offs (offs (length (objs st)) f) (by_offset st);
     h_stack := h_stack st; h_dies := h_dies st; order := order st ++ post (ou_of st) (length (objs st)) f; comp_dir := comp_dir st |}.
Definition ready (comp : list Z) (st : state) : Prop := comp_dir st = Some comp /\ Forall (fun i => (i < length (objs st))%nat) (h_stack st).
Lemma last_In {A} (x d : A) l : In (last (x :: l) d) (x :: l).
Proof. revert x. induction l as [|y l IH]; intros x; [left; reflexivity|]. right. apply IH. Qed.
Lemma obj_app i st l : (i < length (objs st))%nat -> obj i (with_objs (objs st ++ l) st) = obj i st.
Proof. intros H. unfold obj. cbn. apply app_nth1. exact H. Qed.
Lemma ou_walked f st : Forall (fun i => (i < length (objs st))%nat) (h_stack st) -> ou_of (walked f st) = ou_of st.
Proof.
  intros F. unfold ou_of. cbn [walked h_stack]. destruct (h_stack st) as [|x l]; [reflexivity|]. do 2 f_equal. unfold obj. cbn [walked objs]. apply app_nth1. rewrite Forall_forall in F. apply F, last_In.
Qed.
Lemma ready_walked comp f st : ready comp st -> ready comp (walked f st).
Proof. intros (A & B). split; [exact A|]. cbn [walked objs h_stack]. eapply Forall_impl; [|exact B]. intros i Hi. cbv beta in Hi |- *. rewrite app_length. lia. Qed.
Lemma walked_fapp a b st : Forall (fun i => (i < length (objs st))%nat) (h_stack st) -> walked b (walked a st) = walked (fapp a b) st.
Proof.
  intros F. unfold walked at 1. rewrite (ou_walked a st F). cbn [walked objs by_offset h_stack h_dies order comp_dir]. unfold walked. rewrite app_length, size_objects, objects_fapp, post_fapp, offs_fapp, add_offs_app, !app_assoc. reflexivity.
Qed.
Lemma walked_nil st : walked FNil st = st.
Proof. unfold walked. cbn. rewrite !app_nil_r. destruct st; reflexivity. Qed.
Lemma update_mid pre s s' l : update (length pre) (fun _ => s') (pre ++ s :: l) = pre ++ s' :: l.
Proof. induction pre as [|x pre IH]; [reflexivity|]. cbn [length app update]. f_equal. exact IH. Qed.
Lemma nth_mid {A} (pre : list A) s l d : nth (length pre) (pre ++ s :: l) d = s.
Proof. rewrite app_nth2 by lia. rewrite Nat.sub_diag. reflexivity. Qed.
Lemma node_read co names comp inl off attrs i kids k st : means co names inl attrs i -> ready comp st -> (forall st', ready comp st' -> process_list co names kids st' = Ok (walked k st')) ->
  process co names (Die off (if inl then TagInlined else TagSubprogram) attrs kids) st = Ok (walked (FCons {| n_offset := off; n_inlined := inl; n_comp := comp; n_info := i |} k FNil) st).
Proof.
  intros MN (CD & FS) IH. set (n := {| n_offset := off; n_inlined := inl; n_comp := comp; n_info := i |}). rewrite process_unfold. set (t := if inl then TagInlined else TagSubprogram).
  set (st1 := {| objs := objs st ++ [new_sub off (hd_error (h_stack st)) inl (Some comp)]; by_offset := insert_new off (length (objs st)) (by_offset st); h_stack := length (objs st) :: h_stack st; h_dies := t :: h_dies st; order := order st; comp_dir := comp_dir st |}).
  assert (S1 : StartDIE off t st = (true, st1)) by (unfold StartDIE, st1, t; rewrite <- CD; destruct inl; reflexivity).
  rewrite S1. set (top := match h_stack st with [] => true | _ => false end). set (u0 := top && root_used i).
  assert (A : ProcessAttributes co names attrs st1 = Ok (with_objs (objs st ++ [sub_of u0 (hd_error (h_stack st)) n]) st1)).
  { rewrite (attributes_read co names inl top attrs (objs st) (h_stack st) t (h_dies st) (new_sub off (hd_error (h_stack st)) inl (Some comp)) ([], false) (i_ranges i, u0) st1); [|reflexivity|reflexivity|reflexivity|reflexivity|apply MN|reflexivity|apply (pc_read top); apply MN].
    rewrite (pure_read co names inl attrs off (hd_error (h_stack st)) comp i MN u0). reflexivity. }
  rewrite A. cbn [obind]. set (st2 := with_objs (objs st ++ [sub_of u0 (hd_error (h_stack st)) n]) st1).
  assert (R2 : ready comp st2).
  { split; [exact CD|]. cbn [st2 st1 with_objs objs h_stack]. rewrite app_length. cbn [length]. constructor; [lia|]. eapply Forall_impl; [|exact FS]. intros j Hj. cbv beta in Hj |- *. lia. }
  rewrite (IH st2 R2). cbn [obind]. set (u := used_of (ou_of st) n).
  assert (OU : ou_of st2 = Some u).
  { unfold ou_of, u, used_of. change (h_stack st2) with (length (objs st) :: h_stack st). unfold ou_of. destruct (h_stack st) as [|x l] eqn:HS.
    - do 1 f_equal. unfold obj. cbn [last st2 with_objs objs]. rewrite nth_mid. cbn [sub_of s_used]. reflexivity.
    - f_equal. change (last (length (objs st) :: x :: l) O) with (last (x :: l) O). unfold obj. cbn [st2 with_objs objs]. rewrite app_nth1; [reflexivity|]. rewrite Forall_forall in FS. apply FS, last_In. }
  assert (UL : s_used (obj (last (length (objs st) :: h_stack st) O) (walked k st2)) = u).
  { pose proof (ou_walked k st2 (proj2 R2)) as W. rewrite OU in W. unfold ou_of in W. change (h_stack (walked k st2)) with (length (objs st) :: h_stack st) in W. injection W as W. exact W. }
  unfold walked at 1. rewrite OU. change (h_dies st2) with (t :: h_dies st). change (h_stack st2) with (length (objs st) :: h_stack st).
  set (st3 := {| objs := _ |}). assert (E3 : st3 = walked k st2) by (unfold st3, walked; rewrite OU; reflexivity).
  unfold EndDIE. cbn [st3 h_dies]. assert (LB : length (objs st2) = S (length (objs st))) by (cbn [st2 with_objs objs]; rewrite app_length; cbn; lia).
  assert (UL' : s_used (obj (last (length (objs st) :: h_stack st) O) {| objs := objs st3; by_offset := by_offset st3; h_stack := h_stack st3; h_dies := h_dies st; order := order st3; comp_dir := comp_dir st3 |}) = u).
  { unfold obj. cbn [objs]. rewrite E3. exact UL. }
  cbn [hd_error] in *. assert (G : forall X Y : outcome state, (u = true -> X = Y) -> (u = false -> X = Y) -> X = Y) by (intros X Y; destruct u; auto).
  assert (FIN : forall s', (if u then s' = true else s' = u0) -> {| objs := objs st ++ sub_of s' (hd_error (h_stack st)) n :: objects (Some u) (Some (length (objs st))) (S (length (objs st))) k; by_offset := by_offset st3; h_stack := h_stack st; h_dies := h_dies st; order := if u then order st3 ++ [length (objs st)] else order st3; comp_dir := comp_dir st3 |} = walked (FCons n k FNil) st).
  { intros s' Hs. assert (s' = u). { destruct u eqn:EU; [exact Hs|]. subst s'. unfold u0, top. unfold u, used_of, ou_of in EU. destruct (h_stack st); [exact EU|reflexivity]. }
    subst s'. unfold walked. fold u. cbn [objects post offs st3 by_offset order comp_dir]. fold u. rewrite !app_nil_r, LB. cbn [st2 st1 with_objs by_offset order comp_dir]. f_equal. destruct u; rewrite ?app_nil_r, ?app_assoc; reflexivity. }
  assert (O3 : objs st3 = objs st ++ sub_of u0 (hd_error (h_stack st)) n :: objects (Some u) (Some (length (objs st))) (S (length (objs st))) k).
  { cbn [st3 objs]. rewrite LB. cbn [st2 with_objs objs]. rewrite <- app_assoc. reflexivity. }
  assert (T : t = TagSubprogram \/ t = TagInlined) by (unfold t; destruct inl; auto).
  assert (EQ : (let used := s_used (obj (last (length (objs st) :: h_stack st) O) {| objs := objs st3; by_offset := by_offset st3; h_stack := h_stack st3; h_dies := h_dies st; order := order st3; comp_dir := comp_dir st3 |}) in
      let sx := {| objs := objs st3; by_offset := by_offset st3; h_stack := h_stack st3; h_dies := h_dies st; order := order st3; comp_dir := comp_dir st3 |} in
      let sx := if used then set_obj (length (objs st)) (set_used (obj (length (objs st)) sx)) sx else sx in
      Ok {| objs := objs sx; by_offset := by_offset sx; h_stack := h_stack st; h_dies := h_dies sx; order := if used then order sx ++ [length (objs st)] else order sx; comp_dir := comp_dir sx |}) = Ok (walked (FCons n k FNil) st)).
  { cbv zeta. rewrite UL'. f_equal. destruct u eqn:EU.
    - rewrite <- (FIN true eq_refl). cbn [set_obj objs by_offset h_dies order comp_dir]. unfold obj. cbn [objs]. rewrite O3, nth_mid, update_mid. reflexivity.
    - rewrite <- (FIN u0 eq_refl). cbn [objs by_offset h_dies order comp_dir]. rewrite O3. reflexivity. }
  destruct T as [-> | ->]; exact EQ.
Qed.
Lemma process_reads co names comp l f : reads co names comp l f -> forall st, ready comp st -> process_list co names l st = Ok (walked f st).
Proof.
  induction 1 as [|off attrs kids l i k r MN _ IHk _ IHr|off attrs kids l i k r MN _ IHk _ IHr|off attrs kids l k r _ IHk _ IHr]; intros st RD; cbn [process_list].
  - rewrite walked_nil. reflexivity.
  - rewrite (node_read co names comp false off attrs i kids k st MN RD IHk). cbn [obind]. rewrite IHr by (apply ready_walked; exact RD). rewrite walked_fapp by (apply RD). reflexivity.
  - rewrite (node_read co names comp true off attrs i kids k st MN RD IHk). cbn [obind]. rewrite IHr by (apply ready_walked; exact RD). rewrite walked_fapp by (apply RD). reflexivity.
  - rewrite process_unfold. cbn [StartDIE obind]. set (st1 := {| objs := objs st; by_offset := by_offset st; h_stack := h_stack st; h_dies := TagOther :: h_dies st; order := order st; comp_dir := comp_dir st |}).
    rewrite (IHk st1 RD). cbn [obind]. unfold EndDIE. cbn [walked st1 h_dies obind]. rewrite <- (walked_fapp k r st) by (apply RD). rewrite <- (IHr (walked k st)) by (apply ready_walked; exact RD). reflexivity.
Qed.
Definition set_comp (c : option (list Z)) (st : state) : state := {| objs := objs st; by_offset := by_offset st; h_stack := h_stack st; h_dies := h_dies st; order := order st; comp_dir := c |}.
Lemma unit_attributes co names attrs : forall st, h_stack st = [] -> Forall (fun a => match a with ACallFile true _ | ACallLine true _ => False | _ => True end) attrs -> existsb is_comp attrs = false -> ProcessAttributes co names attrs st = Ok st.
Proof.
  induction attrs as [|a attrs IH]; intros st HS FA NC; [reflexivity|]. cbn [ProcessAttributes existsb] in *. apply orb_false_iff in NC. destruct NC as (N1 & N2). inversion FA as [|? ? A1 A2]; subst.
  assert (E : ProcessAttribute co names a st = Ok st) by (unfold ProcessAttribute; rewrite HS; destruct a; try discriminate N1; try reflexivity; (destruct implicit; [contradiction|reflexivity])).
  rewrite E. cbn [obind]. apply IH; assumption.
Qed.
Lemma ProcessAttributes_app co names a b st : ProcessAttributes co names (a ++ b) st = let! st := ProcessAttributes co names a st in ProcessAttributes co names b st.
Proof. revert st. induction a as [|x a IH]; intros st; cbn [app ProcessAttributes obind]; [reflexivity|]. destruct (ProcessAttribute co names x st); cbn [obind]; [apply IH|reflexivity|reflexivity]. Qed.
Lemma unit_read co names d f st : reads_unit (co, names, d) f -> h_stack st = [] -> exists c, process co names d st = Ok (set_comp c (walked f st)).
Proof.
  intros R HS. inversion R as [offset names' off attrs kids comp f' (l1 & l2 & EA & NC) FA RK]; subst. exists (Some comp). rewrite process_unfold. cbn [StartDIE].
  set (st1 := {| objs := objs st; by_offset := by_offset st; h_stack := h_stack st; h_dies := TagUnit :: h_dies st; order := order st; comp_dir := comp_dir st |}).
  apply existsb_app_false in NC. destruct NC as (N1 & N2). apply Forall_app in FA. destruct FA as (F1 & F2). inversion F2 as [|? ? _ F3]; subst.
  rewrite ProcessAttributes_app, (unit_attributes co names l1 st1 HS F1 N1). cbn [obind ProcessAttributes]. unfold ProcessAttribute. cbn [obind].
  rewrite unit_attributes by (first [exact HS|exact F3|exact N2]). cbn [obind]. rewrite (process_reads co names comp kids f RK); [|split; [reflexivity|cbn [h_stack st1]; rewrite HS; constructor]]. cbn [obind]. unfold EndDIE. cbn [walked h_dies st1]. f_equal.
Qed.
Lemma units_read us f : reads_units us f -> forall st, h_stack st = [] -> exists c, read_dies us st = Ok (set_comp c (walked f st)).
Proof.
  induction 1 as [|u us f g RU RS IH]; intros st HS; cbn [read_dies].
  - exists (comp_dir st). rewrite walked_nil. destruct st; reflexivity.
  - destruct u as [[co names] d]. rewrite HS. destruct (unit_read co names d f st RU HS) as (c & ->). cbn [obind]. destruct (IH (set_comp c (walked f st)) HS) as (c' & E). exists c'. rewrite E. f_equal. rewrite <- walked_fapp by (rewrite HS; constructor). reflexivity.
Qed.
(** everything that matters of the state *)
Lemma state_read us f : reads_units us f -> exists st, read_dies us state0 = Ok st /\ objs st = objects None None O f /\ by_offset st = add_offs (offs O f) [] /\ order st = post None O f.
Proof. intros R. destruct (units_read us f R state0 eq_refl) as (c & E). eexists. split; [exact E|]. repeat split. Qed.
