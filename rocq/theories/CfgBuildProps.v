(** Property C36: CFG edge weights account for every branch and fall-through
    sample. *)
From Verif Require Import Base StdSearch CfgFreqModel SymbolModel MapperModel MapperSpec MapperProofs MapperProps
  CfgBuildModel CfgBuildSpec CfgBuildProofs CfgBuildTotal.
From Coq Require Import Permutation.

(** The situation of the builder: the mapper was built from a well-formed
    binary, and there is a CFG node for every block of the mapper. *)
Definition builder_ok (mp : mapper) (has : bb_handle -> bool) : Prop :=
  (exists order ot fs im hot, binary_ok fs /\ addrs_ok hot /\ BuildMapper order ot fs im hot = Ok mp) /\
  forall h, In h (mp_handles mp) -> has h = true.

Lemma builder_layout mp has : builder_ok mp has -> layout_ok mp /\ NoDup (mp_handles mp).
Proof.
  intros [[order [ot [fs [im [hot [B [A E]]]]]]] _]. destruct (C34_blocks _ _ _ _ _ _ B A E) as [H1 [H2 _]]. auto.
Qed.

Lemma fold_gpass mp a b (P : counter -> option (nat * nat)) cs :
  fold_right (fun c s => match P c with Some p => snd c * gpass mp a b p | None => 0 end + s) 0 cs =
  if (b =? S a)%nat then sum_if (fun c => passes mp a (P c)) cs else 0.
Proof.
  unfold gpass. destruct (b =? S a)%nat; cbn [andb].
  - induction cs as [|c cs IH]; cbn [fold_right sum_if]; [reflexivity|]. rewrite IH.
    destruct (P c) as [p|]; [|reflexivity]. destruct (passes mp a (Some p)); lia.
  - induction cs as [|c cs IH]; cbn [fold_right]; [reflexivity|]. rewrite IH. destruct (P c); lia.
Qed.

Lemma CreateEdges_ok dbg pre has mp order reject branches falls st :
  builder_ok mp has -> any_order order -> counts_ok branches falls ->
  CreateEdges dbg pre has mp order reject branches falls = Ok (Some st) ->
  SI st /\
  (forall a b, (a < blk_count mp)%nat -> (b < blk_count mp)%nat ->
     EW mp st a b = expected_weight mp branches falls a b) /\
  (forall a b k, (a < blk_count mp)%nat -> (b < blk_count mp)%nat -> EK mp st a b = Some k ->
     (exists c, In c branches /\ branch_ends mp c = Some (a, b) /\ branch_kind mp c = Some k) \/
     (k = KBranchOrFallthrough /\ b = S a /\ exists f t, (f <= a < t)%nat /\ (t < blk_count mp)%nat /\ fallthrough_path mp f t)).
Proof.
  intros BO Ho [Hc Ht] E. destruct (builder_layout mp has BO) as [L ND]. destruct BO as [_ Hhas].
  unfold CreateEdges in E.
  destruct (branch_loop dbg pre has mp branches (empty_cstate, [], 0)) as [[[st1 ft1] dub]| |] eqn:E1; cbn [obind] in E; try discriminate.
  destruct (reject _ _ _ _); [discriminate|].
  destruct (ft_map_loop dbg mp falls ft1) as [ft2| |] eqn:E2; cbn [obind] in E; try discriminate.
  destruct (paths_loop dbg pre has mp (order ft2) st1) as [st2| |] eqn:E3; cbn [obind] in E; try discriminate.
  injection E as <-.
  assert (Hcb : forall c, In c branches -> 0 <= snd c) by (intros; apply Hc; apply in_or_app; auto).
  assert (Hcf : forall c, In c falls -> 0 <= snd c) by (intros; apply Hc; apply in_or_app; auto).
  pose proof (sum_if_true_nonneg _ Hcb) as Pb. pose proof (sum_if_true_nonneg _ Hcf) as Pf.
  destruct (branch_loop_ok dbg pre has mp L ND Hhas branches empty_cstate [] 0 st1 ft1 dub 0 E1 Hcb) as [A1 [A2 [A3 [A4 A5]]]];
    [split; [intros p w []|cbn; lia]|lia|lia|].
  destruct (ft_map_ok dbg mp falls ft1 ft2 (0 + sum_if (fun _ => true) branches) E2 Hcf A2) as [B1 B2]; [lia|lia|].
  assert (R2 : forall f t w, In ((f, t), w) (order ft2) -> (f < blk_count mp)%nat /\ (t < blk_count mp)%nat).
  { intros f t w Hin. apply (Permutation_in _ (Ho ft2)) in Hin. revert f t w Hin.
    apply (ft_range_map dbg mp L falls ft1 ft2); [|exact E2].
    apply (ft_range_branch dbg pre has mp L ND Hhas branches (empty_cstate, [], 0) st1 ft1 dub); [|exact E1].
    intros f t w []. }
  destruct (paths_loop_ok dbg pre has mp ND Hhas (order ft2) st1 st2 R2 E3) as [C1 [C2 C3]].
  split; [|split].
  - apply C1, A1. split; [constructor|]. split; reflexivity.
  - intros a b Ha Hb. rewrite C2, A4 by assumption.
    replace (EW mp empty_cstate a b) with 0 by reflexivity.
    unfold fsum at 1. rewrite (asum_perm _ _ _ (Ho ft2)). fold (fsum (gpass mp a b) ft2).
    rewrite B2, A3. unfold fsum at 1. cbn [asum fold_right]. rewrite !fold_gpass. unfold expected_weight.
    destruct (b =? S a)%nat; lia.
  - intros a b k Ha Hb Hk. specialize (A5 a b Ha Hb). specialize (C3 a b Ha Hb).
    replace (EK mp empty_cstate a b) with (@None edge_kind) in A5 by reflexivity.
    assert (K1 : EK mp st1 a b = None \/ exists c, In c branches /\ branch_ends mp c = Some (a, b) /\ EK mp st1 a b = branch_kind mp c).
    { destruct A5 as [[A5 _]|[c [Hin [Hp Hk']]]]; [left; exact A5|]. right. exists c. split; [exact Hin|]. split; [|exact Hk'].
      unfold is_pair in Hp. destruct (branch_ends mp c) as [[i j]|]; [|discriminate]. f_equal. f_equal; lia. }
    destruct K1 as [K1|[c [Hin [Hp K1]]]].
    + right. rewrite K1 in C3. destruct C3 as [[C3 _]|[[p [w [Hp Hg]]] C3]]; [congruence|].
      split; [congruence|]. unfold gpass in Hg. destruct (Nat.eqb_spec b (S a)) as [Eb|]; [|cbn in Hg; lia]. split; [exact Eb|].
      cbn [andb] in Hg. destruct p as [f t]. unfold passes in Hg. exists f, t. destruct (CanFallThrough mp f t) eqn:Ec; [|rewrite andb_false_r in Hg; lia].
      destruct (Nat.leb_spec f a); [|cbn in Hg; lia]. destruct (Nat.ltb_spec a t); [|cbn in Hg; lia].
      split; [lia|]. split; [apply (R2 f t w Hp)|]. apply C35_fallthrough. exact Ec.
    + destruct (branch_kind mp c) as [kc|] eqn:Ekc.
      * rewrite K1 in C3. left. exists c. split; [exact Hin|]. split; [exact Hp|]. congruence.
      * exfalso. unfold branch_kind in Ekc. rewrite Hp in Ekc. destruct c as [[? ?] ?]. discriminate.
Qed.

(** The weight of the edge between two blocks is the sum of the counts of the
    branch samples from one to the other and, for neighbouring blocks, of all
    fall-through paths through both: whatever the iteration order of the three
    hash maps. *)
Theorem C36_weights dbg pre has mp order reject branches falls st :
  builder_ok mp has -> any_order order -> counts_ok branches falls ->
  CreateEdges dbg pre has mp order reject branches falls = Ok (Some st) ->
  forall a b, (a < blk_count mp)%nat -> (b < blk_count mp)%nat ->
    edge_weight st (blk_handle mp a, blk_handle mp b) = expected_weight mp branches falls a b.
Proof. intros BO Ho Hc E. apply (CreateEdges_ok _ _ _ _ _ _ _ _ _ BO Ho Hc E). Qed.
Print Assumptions C36_weights.

(** At most one edge per pair of blocks; the per-kind statistics add up to the
    number and the total weight of the edges. *)
Theorem C36_one_edge_and_totals dbg pre has mp order reject branches falls st :
  builder_ok mp has -> any_order order -> counts_ok branches falls ->
  CreateEdges dbg pre has mp order reject branches falls = Ok (Some st) ->
  NoDup (map fst (cs_edges st)) /\
  ktotal (cs_weight st) = total_weight st /\
  ktotal (cs_created st) = zlen (cs_edges st).
Proof. intros BO Ho Hc E. exact (proj1 (CreateEdges_ok _ _ _ _ _ _ _ _ _ BO Ho Hc E)). Qed.
Print Assumptions C36_one_edge_and_totals.

(** The kind of an edge is that of one of its branch samples, or
    "branch or fall-through" between neighbouring blocks of a valid
    fall-through path. *)
Theorem C36_kind dbg pre has mp order reject branches falls st a b w k :
  builder_ok mp has -> any_order order -> counts_ok branches falls ->
  CreateEdges dbg pre has mp order reject branches falls = Ok (Some st) ->
  (a < blk_count mp)%nat -> (b < blk_count mp)%nat ->
  In ((blk_handle mp a, blk_handle mp b), (w, k)) (cs_edges st) ->
  (exists c, In c branches /\ branch_ends mp c = Some (a, b) /\ branch_kind mp c = Some k) \/
  (k = KBranchOrFallthrough /\ b = S a /\ exists f t, (f <= a < t)%nat /\ (t < blk_count mp)%nat /\ fallthrough_path mp f t).
Proof.
  intros BO Ho Hc E Ha Hb Hin. destruct (CreateEdges_ok _ _ _ _ _ _ _ _ _ BO Ho Hc E) as [[N _] [_ K]].
  apply (K a b k Ha Hb). unfold EK, kind_of.
  rewrite (aget_NoDup_In ekey_eqb ekey_eqb_spec _ _ _ N Hin). reflexivity.
Qed.
Print Assumptions C36_kind.

(** Two iterations of the same profile in different orders give the same
    weights. *)
Lemma sum_if_perm P l l' : Permutation l l' -> sum_if P l = sum_if P l'.
Proof. induction 1; cbn [sum_if]; lia. Qed.
Theorem C36_order_independent dbg pre has mp order1 order2 reject branches1 branches2 falls1 falls2 st1 st2 :
  builder_ok mp has -> any_order order1 -> any_order order2 -> counts_ok branches1 falls1 ->
  Permutation branches1 branches2 -> Permutation falls1 falls2 ->
  CreateEdges dbg pre has mp order1 reject branches1 falls1 = Ok (Some st1) ->
  CreateEdges dbg pre has mp order2 reject branches2 falls2 = Ok (Some st2) ->
  forall a b, (a < blk_count mp)%nat -> (b < blk_count mp)%nat ->
    edge_weight st1 (blk_handle mp a, blk_handle mp b) = edge_weight st2 (blk_handle mp a, blk_handle mp b).
Proof.
  intros BO O1 O2 C1 Pb Pf E1 E2 a b Ha Hb.
  assert (C2 : counts_ok branches2 falls2).
  { destruct C1 as [H1 H2]. split.
    - intros c Hin. apply H1. apply in_app_or in Hin. apply in_or_app. destruct Hin as [Hin|Hin].
      + left. apply (Permutation_in _ (Permutation_sym Pb)). exact Hin.
      + right. apply (Permutation_in _ (Permutation_sym Pf)). exact Hin.
    - rewrite <- (sum_if_perm _ _ _ Pb), <- (sum_if_perm _ _ _ Pf). exact H2. }
  rewrite (C36_weights _ _ _ _ _ _ _ _ _ BO O1 C1 E1 a b Ha Hb).
  rewrite (C36_weights _ _ _ _ _ _ _ _ _ BO O2 C2 E2 a b Ha Hb).
  unfold expected_weight. rewrite !(sum_if_perm _ _ _ Pb), !(sum_if_perm _ _ _ Pf). reflexivity.
Qed.
Print Assumptions C36_order_independent.

(** A first build (no CFG edges yet) never aborts and never overflows when the
    counts are small enough. *)
Theorem C36_succeeds has mp order reject branches falls :
  builder_ok mp has -> any_order order ->
  (forall c, In c (branches ++ falls) -> 0 <= snd c) ->
  2 * sum_if (fun _ => true) branches + sum_if (fun _ => true) falls < 2147483648 ->
  exists r, CreateEdges false [] has mp order reject branches falls = Ok r.
Proof.
  intros BO Ho Hc Ht. destruct (builder_layout mp has BO) as [L ND]. destruct BO as [_ Hhas].
  assert (Hcb : forall c, In c branches -> 0 <= snd c) by (intros; apply Hc; apply in_or_app; auto).
  assert (Hcf : forall c, In c falls -> 0 <= snd c) by (intros; apply Hc; apply in_or_app; auto).
  pose proof (sum_if_true_nonneg _ Hcb) as Pb. pose proof (sum_if_true_nonneg _ Hcf) as Pf.
  unfold CreateEdges.
  destruct (branch_loop_total has mp branches empty_cstate [] 0 0 Hcb) as [st1 [ft1 [dub [E1 Hb1]]]];
    [intros k; cbn; lia|lia|lia|].
  rewrite E1. cbn [obind]. destruct (reject _ _ _ _); [eauto|].
  destruct (ft_map_total mp falls ft1) as [ft2 E2]. rewrite E2. cbn [obind].
  destruct (branch_loop_ok false [] has mp L ND Hhas branches empty_cstate [] 0 st1 ft1 dub 0 E1 Hcb) as [_ [A2 _]];
    [split; [intros p w []|cbn; lia]|lia|lia|].
  destruct (ft_map_ok false mp falls ft1 ft2 (0 + sum_if (fun _ => true) branches) E2 Hcf A2) as [[B1 B2] _]; [lia|lia|].
  destruct (paths_loop_total has mp ND (order ft2) st1 (0 + sum_if (fun _ => true) branches)) as [st2 E3].
  - intros f t w Hin. apply (Permutation_in _ (Ho ft2)) in Hin. revert f t w Hin.
    apply (ft_range_map false mp L falls ft1 ft2); [|exact E2].
    apply (ft_range_branch false [] has mp L ND Hhas branches (empty_cstate, [], 0) st1 ft1 dub); [|exact E1].
    intros f t w [].
  - intros p w Hin. apply (Permutation_in _ (Ho ft2)) in Hin. eauto.
  - exact Hb1.
  - lia.
  - unfold fsum. rewrite (asum_perm _ _ _ (Ho ft2)). fold (fsum (fun _ => 1) ft2). lia.
  - rewrite E3. cbn [obind]. eauto.
Qed.
Print Assumptions C36_succeeds.

(** Function f (blocks 0..2: the first calls g and falls through) and g. *)
Definition cb_binary : list func_map :=
  [FuncMap 16 [BBEntry 0 4 true false; BBEntry 4 4 true false; BBEntry 8 4 false true];
   FuncMap 32 [BBEntry 0 8 false true]].
Definition cb_names : info_map := [(0%nat, SymInfo [[102]] dot_text); (1%nat, SymInfo [[103]] dot_text)].
Definition cb_mapper : mapper :=
  Mapper [0%nat; 1%nat] cb_binary [BbHandle 0 0; BbHandle 0 1; BbHandle 0 2; BbHandle 1 0].
Lemma cb_binary_ok : binary_ok cb_binary.
Proof.
  unfold binary_ok, nents. cbn [cb_binary length].
  split; [|split; [|split; [|split]]].
  - intros [|[|f]] H; cbn; lia.
  - intros [|[|f]] b Hf Hb; cbn [nth cb_binary fm_entries length] in Hb; [| |lia].
    + destruct b as [|[|[|b]]]; [vm_compute; intuition congruence..|lia].
    + destruct b as [|b]; [vm_compute; intuition congruence|lia].
  - intros [|[|f]] b b' Hf Hb; cbn [nth cb_binary fm_entries length] in Hb; [| |lia].
    + destruct b as [|[|b]]; destruct b' as [|[|[|b']]]; try lia; vm_compute; discriminate.
    + lia.
  - intros f g H. assert (f = 0%nat /\ g = 1%nat) as [-> ->] by lia. vm_compute. reflexivity.
  - intros f g b H Hb. assert (f = 0%nat /\ g = 1%nat) as [-> ->] by lia.
    cbn [nth cb_binary fm_entries length] in Hb.
    destruct b as [|[|[|b]]]; [vm_compute; discriminate..|lia].
Qed.
Lemma cb_builder_ok : builder_ok cb_mapper (fun _ => true).
Proof.
  split; [|reflexivity]. exists (fun t => t), true, cb_binary, cb_names, None.
  split; [exact cb_binary_ok|]. split; [exact I|]. vm_compute. reflexivity.
Qed.

(** f calls g (3 times), g returns behind the call (3), the range from g's
    return to the end of f (2), and a branch from f's last block back to its
    second (5). *)
Definition cb_branches : list counter := [((19, 32), 3); ((39, 20), 3); ((27, 20), 5)].
Definition cb_falls : list counter := [((20, 27), 2); ((16, 27), 1)].
Example C36_nonvacuous :
  builder_ok cb_mapper (fun _ => true) /\ any_order (@rev ((nat * nat) * Z)) /\ counts_ok cb_branches cb_falls /\
  exists st, CreateEdges true [] (fun _ => true) cb_mapper (@rev _) (fun _ _ _ _ => false) cb_branches cb_falls = Ok (Some st) /\
    map (fun p => expected_weight cb_mapper cb_branches cb_falls (fst p) (snd p))
      [(0, 1); (1, 2); (0, 3); (3, 0); (2, 1); (2, 0)]%nat = [9; 3; 3; 3; 0; 5].
Proof.
  split; [exact cb_builder_ok|]. split; [intros t; apply Permutation_sym, Permutation_rev|].
  split; [split; [|vm_compute; reflexivity]|].
  { intros c Hc. cbn in Hc. repeat destruct Hc as [<-|Hc]; cbn; lia. }
  eexists. split; [vm_compute; reflexivity|]. vm_compute. reflexivity.
Qed.

(** The kind of an edge does depend on the iteration order: two branches
    between the same blocks, one to the start of the target function (a call),
    one into its middle (a return). *)
Theorem C36_kind_order_refuted :
  exists branches1 branches2 st1 st2,
    Permutation branches1 branches2 /\
    CreateEdges false [] (fun _ => true) cb_mapper (fun t => t) (fun _ _ _ _ => false) branches1 [] = Ok (Some st1) /\
    CreateEdges false [] (fun _ => true) cb_mapper (fun t => t) (fun _ _ _ _ => false) branches2 [] = Ok (Some st2) /\
    aget ekey_eqb (BbHandle 0 0, BbHandle 1 0) (cs_edges st1) = Some (2, KCall) /\
    aget ekey_eqb (BbHandle 0 0, BbHandle 1 0) (cs_edges st2) = Some (2, KRet).
Proof.
  exists [((19, 32), 1); ((18, 36), 1)], [((18, 36), 1); ((19, 32), 1)].
  eexists _, _. split; [apply perm_swap|]. split; [vm_compute; reflexivity|]. split; [vm_compute; reflexivity|].
  split; vm_compute; reflexivity.
Qed.
Print Assumptions C36_kind_order_refuted.

(** Building on top of CFGs that already have the edge aborts: the builder
    looks only for edges it made itself. *)
Theorem C36_on_top_refuted :
  exists pre c,
    CreateEdges false [] (fun _ => true) cb_mapper (fun t => t) (fun _ _ _ _ => false) [c] [] = Ok (Some pre) /\
    CreateEdges false (map fst (cs_edges pre)) (fun _ => true) cb_mapper (fun t => t) (fun _ _ _ _ => false) [c] [] = Abort.
Proof.
  eexists _, ((23, 16), 4). split; [vm_compute; reflexivity|]. vm_compute. reflexivity.
Qed.
Print Assumptions C36_on_top_refuted.
