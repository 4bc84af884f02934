(** C74: the profile symbol list and the profile. *)
From Verif Require Import Base SymbolModel SymbolSpec SymbolProofs AttribProofs ElideModel ElideProofs ElideProps SymListModel SymListProps ColdListModel ColdListSpec.
From Coq Require Import Reals Lra.
Import ListNotations.
Open Scope Z_scope.

Lemma node_app s q k : node_at s (q ++ [k]) = match node_at s q with Some c => aget callsite_eqb k (s_calls c) | None => None end.
Proof.
  revert s. induction q as [|j q IH]; intros s; cbn [app node_at].
  - destruct (aget callsite_eqb k (s_calls s)); reflexivity.
  - destruct (aget callsite_eqb j (s_calls s)); auto.
Qed.

Lemma in_names_below h t ts pos calls n :
  In n (names_below (Sym h t ts pos calls)) <->
  (exists l i, In (l, i) pos /\ In n (akeys (p_targets i))) \/
  (exists l x c, In ((l, x), c) calls /\ (n = x \/ In n (names_below c))).
Proof.
  cbn [names_below]. rewrite in_app_iff, in_flat_map.
  assert (A : (exists x : Z * pinfo, In x pos /\ In n (akeys (p_targets (snd x)))) <->
              (exists l i, In (l, i) pos /\ In n (akeys (p_targets i)))).
  { split; [intros ([l i] & H); exists l, i; exact H|intros (l & i & H); exists (l, i); exact H]. }
  rewrite A. clear A.
  match goal with |- _ \/ In n ?g <-> _ => assert (B : In n g <-> exists l x c, In ((l, x), c) calls /\ (n = x \/ In n (names_below c))) end.
  { induction calls as [|[[l x] c] cs IH].
    - split; [intros []|intros (l & x & c & [] & _)].
    - cbn [In]. rewrite in_app_iff, IH. split.
      + intros [<- |[H|(l2 & x2 & c2 & I & H)]]; [exists l, x, c; auto|exists l, x, c; auto|exists l2, x2, c2; auto].
      + intros (l2 & x2 & c2 & [I|I] & H); [injection I as <- <- <-; destruct H as [-> |H]; auto|right; right; eauto]. }
  rewrite B. reflexivity.
Qed.

Lemma names_below_spec n : forall s, sym_ok s -> (In n (names_below s) <->
  exists q l, has_target s q l n = true \/ has_node s (q ++ [(l, n)]) = true).
Proof.
  intros s OK. induction OK as [h t ts pos calls Hh Ht PO NC SUB IH].
  rewrite in_names_below. split.
  - intros [(l & i & I & J)|(l & x & c & I & J)].
    + exists [], l. left. unfold has_target, pos_at. cbn [node_at s_pos].
      destruct PO as [NP _]. rewrite (aget_NoDup_In Z.eqb Z.eqb_spec l i pos NP I).
      destruct (aget name_eqb n (p_targets i)) eqn:E; [reflexivity|].
      exfalso. apply (aget_None_iff name_eqb name_eqb_spec) in E. contradiction.
    + assert (AG : aget callsite_eqb (l, x) calls = Some c) by (apply (aget_NoDup_In callsite_eqb callsite_eqb_spec); auto).
      destruct J as [-> |J].
      * exists [], l. right. unfold has_node. cbn [app node_at s_calls]. rewrite AG. reflexivity.
      * apply (IH _ c I) in J. destruct J as (q & l2 & J). exists ((l, x) :: q), l2.
        unfold has_target, pos_at, has_node in *. cbn [app node_at s_calls]. rewrite AG. exact J.
  - intros (q & l & J). destruct q as [|[l1 x1] q].
    + destruct J as [J|J].
      * left. unfold has_target, pos_at in J. cbn [node_at s_pos] in J. destruct (aget Z.eqb l pos) as [i|] eqn:E; [|discriminate].
        apply (aget_In Z.eqb Z.eqb_spec) in E. exists l, i. split; auto.
        destruct (aget name_eqb n (p_targets i)) as [v|] eqn:E2; [|discriminate].
        apply (aget_In name_eqb name_eqb_spec) in E2. apply (in_map fst) in E2. exact E2.
      * right. unfold has_node in J. cbn [app node_at s_calls] in J. destruct (aget callsite_eqb (l, n) calls) as [c|] eqn:E; [|discriminate].
        apply (aget_In callsite_eqb callsite_eqb_spec) in E. exists l, n, c. auto.
    + right. unfold has_target, pos_at, has_node in J. cbn [app node_at s_calls] in J.
      destruct (aget callsite_eqb (l1, x1) calls) as [c|] eqn:E; [|destruct J; discriminate].
      apply (aget_In callsite_eqb callsite_eqb_spec) in E. exists l1, x1, c. split; auto. right.
      apply (IH _ c E). exists q, l. exact J.
Qed.

(** The names collected from the profile are those it mentions. *)
Theorem C74_names_of_profile : forall m n, smap_ok m -> (In n (collectNamesInProfile m) <-> mentioned m n).
Proof.
  intros m n OK. unfold collectNamesInProfile. rewrite in_flat_map.
  assert (FI : forall x i, In (x, i) (sm_names m) -> sm_find m x = nth_error (sm_heap m) i).
  { intros x i I. unfold sm_find. rewrite (aget_NoDup_In name_eqb name_eqb_spec x i (sm_names m)); [reflexivity|apply OK|exact I]. }
  assert (OKS : forall x s, sm_find m x = Some s -> sym_ok s).
  { destruct OK as (_ & B & _). intros x s. unfold sm_find. destruct (aget _ _ _); [|discriminate]. intros F.
    rewrite Forall_forall in B. apply B. eapply nth_error_In; eauto. }
  split.
  - intros ([x i] & I & J). cbn [fst snd] in J. rewrite <- (FI x i I) in J. destruct (sm_find m x) as [s|] eqn:F; [|destruct J].
    destruct (Z.ltb_spec 0 (s_total s)); [|destruct J]. exists x, s. split; [exact F|]. split.
    { unfold total_at. cbn [node_at]. assumption. }
    destruct J as [J|J]; [left; auto|right]. apply names_below_spec; [eapply OKS; eauto|exact J].
  - intros (x & s & F & P & J). assert (K : In x (akeys (sm_names m))) by (apply sm_find_keys; congruence).
    unfold akeys in K. apply in_map_iff in K. destruct K as ([x' i] & E & I). cbn [fst] in E. subst x'.
    exists (x, i). split; [exact I|]. cbn [fst snd]. rewrite <- (FI x i I), F.
    unfold total_at in P. cbn [node_at] in P. destruct (Z.ltb_spec 0 (s_total s)); [|lia].
    destruct J as [-> |J]; [left; auto|right]. apply names_below_spec; [eapply OKS; eauto|exact J].
Qed.
Print Assumptions C74_names_of_profile.

Lemma candidates symtab m x z : smap_ok m ->
  (In (x, z) (collectNamesForProfSymList symtab m) <-> in_binary symtab x z /\ ~ mentioned m x).
Proof.
  intros OK. unfold collectNamesForProfSymList, in_binary. rewrite filter_In, in_map_iff, <- (C74_names_of_profile m x OK).
  cbn [fst]. 
  assert (E : negb (existsb (name_eqb x) (collectNamesInProfile m)) = true <-> ~ In x (collectNamesInProfile m)).
  { rewrite negb_true_iff, <- not_true_iff_false, existsb_exists. split; intros H K; apply H.
    - exists x. split; auto. destruct (name_eqb_spec x x); congruence.
    - destruct K as (y & I & Q). destruct (name_eqb_spec x y); [congruence|discriminate]. }
  rewrite E. split.
  - intros (([a e] & Q & I) & N). cbn [snd] in Q. subst e. eauto.
  - intros ((a & I) & N). split; auto. exists (a, (x, z)). auto.
Qed.

Lemma sizes_filter (f : name * Z -> bool) l : sizes_ok l -> sizes_ok (filter f l).
Proof.
  intros [A B]. split.
  - apply Forall_forall. intros e I. rewrite Forall_forall in A. apply A. apply filter_In in I. tauto.
  - assert (L : 0 <= sum_sizes (filter f l) <= sum_sizes l); [|lia]. clear B. induction l as [|[x z] l IH]; [cbn; lia|].
    inversion A as [|? ? A1 A2]; subst. cbn [snd] in A1. specialize (IH A2). cbn [filter].
    destruct (f (x, z)); unfold sum_sizes in *; cbn [fold_right snd] in *; lia.
Qed.

(** The list has exactly the original names of the function symbols that the
    profile does not mention and whose size is kept (C43 says which sizes). *)
Theorem C74_list : forall orig symtab ratio m,
  smap_ok m -> sizes_ok (map snd symtab) -> (0 <= ratio <= 1)%R ->
  exists names keep, prof_sym_list orig symtab ratio m = Ok names /\
    (forall n, In n names <-> exists x z, in_binary symtab x z /\ ~ mentioned m x /\ keep (x, z) = true /\ n = orig x) /\
    (forall x z x' z', in_binary symtab x z -> ~ mentioned m x -> in_binary symtab x' z' -> ~ mentioned m x' ->
       keep (x, z) = true -> z <= z' -> keep (x', z') = true).
Proof.
  intros orig symtab ratio m OK SZ R. unfold prof_sym_list.
  destruct (C43_upward_closed orig (collectNamesForProfSymList symtab m) ratio) as (keep & E & UP).
  - apply sizes_filter. exact SZ.
  - exact R.
  - exists (map (fun e => orig (fst e)) (filter keep (collectNamesForProfSymList symtab m))), keep.
    split; [exact E|]. split.
    + intros n. rewrite in_map_iff. split.
      * intros ([x z] & <- & I). apply filter_In in I. destruct I as [I K]. apply candidates in I; auto. cbn [fst]. exists x, z. tauto.
      * intros (x & z & B & N & K & ->). exists (x, z). split; auto. apply filter_In. split; auto. apply candidates; auto.
    + intros x z x' z' B N B' N' K L. apply (UP (x, z) (x', z')); auto; apply candidates; auto.
Qed.
Print Assumptions C74_list.

(** If the suffix policy leaves the names of the binary alone, no listed name
    is mentioned in the profile. *)
Theorem C74_disjoint : forall orig symtab ratio m names n,
  smap_ok m -> sizes_ok (map snd symtab) -> (0 <= ratio <= 1)%R ->
  (forall x z, in_binary symtab x z -> orig x = x) ->
  prof_sym_list orig symtab ratio m = Ok names -> In n names -> ~ mentioned m n.
Proof.
  intros orig symtab ratio m names n OK SZ R ID E I.
  destruct (C74_list orig symtab ratio m OK SZ R) as (names' & keep & E' & L & _).
  assert (names' = names) by congruence. subst names'. apply L in I. destruct I as (x & z & B & N & _ & ->).
  rewrite (ID x z B). exact N.
Qed.
Print Assumptions C74_disjoint.

(** In general a listed name that the profile mentions is the original name of a
    symbol with another name that the profile does not mention. *)
Theorem C74_overlap_only_by_suffix : forall orig symtab ratio m names n,
  smap_ok m -> sizes_ok (map snd symtab) -> (0 <= ratio <= 1)%R ->
  prof_sym_list orig symtab ratio m = Ok names -> In n names -> mentioned m n ->
  exists x z, in_binary symtab x z /\ x <> n /\ orig x = n /\ ~ mentioned m x.
Proof.
  intros orig symtab ratio m names n OK SZ R E I M.
  destruct (C74_list orig symtab ratio m OK SZ R) as (names' & keep & E' & L & _).
  assert (names' = names) by congruence. subst names'. apply L in I. destruct I as (x & z & B & N & _ & ->).
  exists x, z. split; auto. split; [intros Q; rewrite Q in N at 1; contradiction|auto].
Qed.
Print Assumptions C74_overlap_only_by_suffix.

(** That is not rare: after suffixes have been elided from the profile, the
    suffixed symbols of the binary are not mentioned any more, and with the ratio 1
    the hot functions they belong to are listed as not being in the profile. *)
Theorem C74_disjoint_refuted : forall orig symtab m x z,
  smap_ok m -> sizes_ok (map snd symtab) -> in_binary symtab x z -> 0 < z ->
  mentioned m (orig x) -> ~ mentioned m x ->
  exists names, prof_sym_list orig symtab 1 m = Ok names /\ In (orig x) names.
Proof.
  intros orig symtab m x z OK SZ B P M N.
  assert (SZ' : sizes_ok (collectNamesForProfSymList symtab m)) by (apply sizes_filter; exact SZ).
  assert (I : In (x, z) (collectNamesForProfSymList symtab m)) by (apply candidates; auto).
  unfold prof_sym_list. eexists. split.
  - apply C43_ratio_one; [exact SZ'|]. destruct SZ' as [A _]. clear -A I P. revert A I.
    generalize (collectNamesForProfSymList symtab m) as l. induction l as [|[y w] l IH]; intros A I; [destruct I|].
    inversion A as [|? ? A1 A2]; subst. cbn [snd] in A1. unfold sum_sizes in *. cbn [fold_right snd].
    assert (NN : 0 <= fold_right (fun e a => snd e + a) 0 l).
    { clear -A2. induction l as [|[y w] l IH]; [cbn; lia|]. inversion A2; subst. cbn [fold_right snd] in *. specialize (IH H2). lia. }
    destruct I as [Q|I]; [injection Q as <- <-; lia|]. specialize (IH A2 I). lia.
  - apply in_map_iff. exists (x, z). split; [reflexivity|]. apply filter_In. split; [exact I|].
    cbn [snd]. destruct (Z.eqb_spec z 0); [lia|reflexivity].
Qed.
Print Assumptions C74_disjoint_refuted.

(** f.x of the binary, sampled, is f in the profile; b is called from f and is a
    function of the binary; c is neither sampled nor called. *)
Definition cl_f : name := [102].
Definition cl_fx : name := [102; 46; 120].
Definition cl_symtab : list (Z * (name * Z)) := [(16, (cl_fx, 8)); (32, ([98], 4)); (48, ([99], 2))].
Definition cl_prof : smap := SMap [(cl_fx, 0%nat)] [Sym 0 5 0 [(1, PInfo 5 1 [([98], 5)])] [((2, [100]), Sym 0 3 0 [] [])]].
Example C74_nonvacuous :
  exists m, ElideSuffixesAndMerge (GetOriginalName ElideAll) cl_prof = Ok m /\ smap_ok m /\
    sizes_ok (map snd cl_symtab) /\ in_binary cl_symtab cl_fx 8 /\
    mentioned m (GetOriginalName ElideAll cl_fx) /\ ~ mentioned m cl_fx /\ mentioned m [98] /\ mentioned m [100] /\ ~ mentioned m [99] /\
    prof_sym_list (GetOriginalName ElideAll) cl_symtab 1 m = Ok [cl_f; [99]] /\
    prof_sym_list (fun n => n) cl_symtab 1 cl_prof = Ok [[99]].
Proof.
  assert (OK0 : smap_ok cl_prof).
  { assert (U : forall z, 0 <= z < 100 -> is_u64 z) by (unfold is_u64; intros; lia).
    unfold cl_prof, smap_ok. cbn [sm_names sm_heap akeys map fst]. split; [repeat constructor; intros []|]. split.
    - constructor; [|constructor]. constructor; try (apply U; lia).
      + split; [repeat constructor; intros []|]. constructor; [|constructor]. split; [apply U; cbn; lia|]. split; [apply U; cbn; lia|].
        split; [repeat constructor; intros []|]. constructor; [apply U; cbn; lia|constructor].
      + repeat constructor; intros [].
      + intros k c [Q|[]]. injection Q as <- <-. constructor; try (apply U; lia); [split; constructor|constructor|intros k c []].
    - constructor; [cbn; lia|constructor]. }
  assert (UN : unshared cl_prof) by (repeat constructor; intros []).
  destruct (C12_elision_merges_by_original_name ElideAll cl_prof) as (m & E & OK & _); [discriminate|exact OK0|exact UN|].
  assert (EM : exists m0, ElideSuffixesAndMerge (GetOriginalName ElideAll) cl_prof = Ok m0 /\
     collectNamesInProfile m0 = [cl_f; [98]; [100]]).
  { eexists. split; [vm_compute; reflexivity|]. vm_compute. reflexivity. }
  destruct EM as (m0 & E0 & NM). assert (m0 = m) by congruence. subst m0.
  exists m. split; [exact E|]. split; [exact OK|].
  assert (SZ : sizes_ok (map snd cl_symtab)).
  { split; [repeat (constructor; [cbn; lia|]); constructor|cbn; lia]. }
  split; [exact SZ|]. split; [exists 16; left; reflexivity|].
  assert (ME : forall n, mentioned m n <-> In n [cl_f; [98]; [100]]). { intros n. rewrite <- NM. symmetry. apply C74_names_of_profile. exact OK. }
  split; [apply ME; vm_compute; auto|].
  split. { rewrite ME. intros [Q|[Q|[Q|[]]]]; discriminate. }
  split; [apply ME; cbn; auto|]. split; [apply ME; cbn; auto|].
  split. { rewrite ME. intros [Q|[Q|[Q|[]]]]; discriminate. }
  assert (C1 : collectNamesForProfSymList cl_symtab m = [(cl_fx, 8); ([99], 2)]).
  { unfold collectNamesForProfSymList. rewrite NM. vm_compute. reflexivity. }
  assert (C2 : collectNamesForProfSymList cl_symtab cl_prof = [([99], 2)]) by (vm_compute; reflexivity).
  unfold prof_sym_list. rewrite C1, C2. split.
  - rewrite C43_ratio_one; [vm_compute; reflexivity| |cbn; lia]. split; [repeat (constructor; [cbn; lia|]); constructor|cbn; lia].
  - rewrite C43_ratio_one; [vm_compute; reflexivity| |cbn; lia]. split; [repeat (constructor; [cbn; lia|]); constructor|cbn; lia].
Qed.
