(** C12: suffix elision. *)
From Verif Require Import Base AssocFold ISort SymbolModel SymbolSpec SymbolProofs AttribProofs
  ElideModel ElideProofs.

(** Sum of an observation over the functions in a list of names. *)
Definition total_over (o : observer) (m : smap) (l : list name) : Z :=
  fold_right Z.add 0
    (map (fun x => match sm_find m x with Some s => observe o s | None => 0 end) l).

Lemma observe_range o s : sym_ok s -> is_u64 (observe o s).
Proof.
  intros Hs. destruct o as [p|p|p l|p l|p l t]; cbn [observe].
  - unfold total_at. destruct (node_at s p) eqn:E; auto. apply sym_ok_total. eauto using node_at_ok.
  - unfold head_at. destruct (node_at s p) eqn:E; auto. apply sym_ok_head. eauto using node_at_ok.
  - unfold count_at. destruct (pos_at s p l) eqn:E; auto. apply (pos_at_ok _ _ _ _ Hs E).
  - unfold ninst_at. destruct (pos_at s p l) eqn:E; auto. apply (pos_at_ok _ _ _ _ Hs E).
  - unfold target_at. destruct (pos_at s p l) as [i|] eqn:E; auto.
    destruct (pos_at_ok _ _ _ _ Hs E) as (_ & _ & _ & F). unfold tget.
    destruct (aget name_eqb t (p_targets i)) eqn:G; auto. apply aget_In in G; auto.
    rewrite In_Forall_snd in F. eauto.
Qed.

(** Whatever the naming rule [orig] (for instance the default policy): if
    eliding a name of the map twice is the same as once, and every name has its
    own object, the result has exactly the original names, and the profile under
    an original name is the sum of the profiles of all functions sharing it. *)
Theorem C12_elision_merges_when_idempotent : forall orig m,
  (forall x, In x (akeys (sm_names m)) -> orig (orig x) = orig x) -> smap_ok m -> unshared m ->
  exists m', ElideSuffixesAndMerge orig m = Ok m' /\ smap_ok m' /\
    (forall n, sm_find m' n <> None <->
       exists x, In x (akeys (sm_names m)) /\ orig x = n) /\
    (forall n s', sm_find m' n = Some s' -> forall o,
       observe o s' =
       total_over o m (filter (fun x => name_eqb (orig x) n) (akeys (sm_names m))) mod 2 ^ 64).
Proof.
  intros orig m Hid Hok Hun.
  set (N := akeys (sm_names m)) in *.
  set (ys := filter (fun n => negb (name_eqb (orig n) n)) N).
  assert (HN : NoDup N) by apply Hok.
  assert (Hys : forall y, In y ys <-> In y N /\ orig y <> y).
  { intros y. unfold ys. rewrite filter_In. destruct (name_eqb_spec (orig y) y); cbn [negb]; intuition congruence. }
  destruct (elide_all_unshared orig ys m Hok Hun) as (m' & E & Hok' & _ & Hp & Hs).
  - apply NoDup_filter. exact HN.
  - intros y Hy. apply Hys in Hy. destruct Hy as [H1 H2]. split; [exact H1|]. split; [exact H2|].
    rewrite Hys. intros [_ H]. apply H. apply Hid; tauto.
  - exists m'. split; [exact E|]. split; [exact Hok'|]. 
    assert (Hpres : forall n, sm_find m' n <> None <-> exists x, In x N /\ orig x = n).
    { intros n. rewrite Hp, sm_find_keys by exact Hok. fold N. split.
      - intros [Hn [Hi|(y & Hy & Ey)]].
        + exists n. split; [exact Hi|]. destruct (name_eqb_spec (orig n) n); [assumption|].
          exfalso. apply Hn. apply Hys. auto.
        + exists y. apply Hys in Hy. tauto.
      - intros (x & Hx & <-). split.
        + rewrite Hys. intros [_ H]. apply H. apply Hid; tauto.
        + destruct (name_eqb_spec (orig x) x) as [Ex|Ex]; [left; congruence|].
          right. exists x. split; [apply Hys; auto|reflexivity]. }
    split; [exact Hpres|].
    intros n s' Hf o.
    assert (Hnys : ~ In n ys).
    { assert (H : sm_find m' n <> None) by congruence. apply Hpres in H. destruct H as (x & Hx & <-).
      rewrite Hys. intros [_ H]. apply H. apply Hid; tauto. }
    specialize (Hs o n Hnys). unfold fd at 1 in Hs. rewrite Hf in Hs.
    assert (Hs' : sym_ok s').
    { replace s' with (fd m' n) by (unfold fd; rewrite Hf; reflexivity). apply fd_ok. exact Hok'. }
    pose proof (observe_range o s' Hs') as Hr.
    replace (observe o s' mod 2 ^ 64) with (observe o s') in Hs
      by (symmetry; apply (u64_id (observe o s')); exact Hr).
    rewrite Hs. f_equal.
    assert (Hto : forall l, total_over o m l = sumof o m l).
    { intros l. unfold total_over, sumof. f_equal. apply map_ext. intros x. unfold fd.
      destruct (sm_find m x); [reflexivity|]. rewrite observe_sym0. reflexivity. }
    rewrite Hto. unfold ys. clear - HN Hid Hnys Hys Hok.
    assert (G : forall l, NoDup l -> 
      sumof o m (filter (fun x => name_eqb (orig x) n) l) =
      (if existsb (name_eqb n) l && name_eqb (orig n) n then observe o (fd m n) else 0) +
      sumof o m (filter (fun y => name_eqb (orig y) n) (filter (fun x => negb (name_eqb (orig x) x)) l))).
    { induction l as [|x l IH]; intros Hn; [reflexivity|]. inversion Hn; subst.
      specialize (IH H2). cbn [filter existsb].
      destruct (name_eqb_spec (orig x) x) as [Ex|Ex]; cbn [negb].
      - rewrite Ex. destruct (name_eqb_spec x n) as [->|Hxn].
        + assert (Hnl : existsb (name_eqb n) l = false).
          { destruct (existsb (name_eqb n) l) eqn:El; [|reflexivity].
            apply (existsb_eqb_In name_eqb name_eqb_spec) in El. tauto. }
          rewrite Hnl in IH. cbn [andb] in IH.
          destruct (name_eqb_spec n n); [|congruence]. cbn [orb andb].
          destruct (name_eqb_spec (orig n) n); [|congruence].
          unfold sumof in *. cbn [map fold_right]. lia.
        + destruct (name_eqb_spec n x); [congruence|]. cbn [orb]. exact IH.
      - destruct (name_eqb_spec n x) as [->|Hnx]; cbn [orb].
        + cbn [filter]. destruct (name_eqb_spec (orig x) x); [congruence|].
          rewrite andb_false_r in *. exact IH.
        + cbn [filter]. destruct (name_eqb_spec (orig x) n); [|exact IH].
          unfold sumof in *. cbn [map fold_right]. lia. }
    rewrite (G N HN). destruct (existsb (name_eqb n) N) eqn:El.
    + apply (existsb_eqb_In name_eqb name_eqb_spec) in El. cbn [andb].
      destruct (name_eqb_spec (orig n) n) as [En|En]; [reflexivity|].
      exfalso. apply Hnys. apply Hys. auto.
    + cbn [andb]. assert (Enone : sm_find m n = None).
      { destruct (sm_find m n) eqn:Ef; [|reflexivity]. exfalso.
        assert (H : sm_find m n <> None) by congruence. apply sm_find_keys in H; [|exact Hok].
        apply (existsb_eqb_In name_eqb name_eqb_spec) in H. fold N in H. congruence. }
      unfold fd at 1. rewrite Enone, observe_sym0. reflexivity.
Qed.
Print Assumptions C12_elision_merges_when_idempotent.

(** For the policies "all" and "none" and a map in which every name has its own
    object: the result has exactly the original names, and the profile under an
    original name is the sum of the profiles of all functions sharing it. *)
Theorem C12_elision_merges_by_original_name : forall pol m,
  pol <> ElideSelected -> smap_ok m -> unshared m ->
  exists m', ElideSuffixesAndMerge (GetOriginalName pol) m = Ok m' /\ smap_ok m' /\
    (forall n, sm_find m' n <> None <->
       exists x, In x (akeys (sm_names m)) /\ GetOriginalName pol x = n) /\
    (forall n s', sm_find m' n = Some s' -> forall o,
       observe o s' =
       total_over o m (filter (fun x => name_eqb (GetOriginalName pol x) n) (akeys (sm_names m))) mod 2 ^ 64).
Proof.
  intros pol m Hpol. apply C12_elision_merges_when_idempotent. intros x _.
  destruct pol; [apply orig_all_idem|congruence|reflexivity].
Qed.
Print Assumptions C12_elision_merges_by_original_name.

(** Under "all" no surviving name carries a suffix: it has no '.' at all, unless
    it begins with one (assembler-local symbols are left alone). *)
Theorem C12_all_policy_names_have_no_suffix : forall n,
  let o := GetOriginalName ElideAll n in
  (~ In 46 o \/ (exists r, n = 46 :: r /\ o = n)) /\ (exists r, n = o ++ r) /\
  GetOriginalName ElideAll o = o.
Proof.
  intros n o. split; [|split; [|apply orig_all_idem]].
  - destruct (orig_all_no_dot n) as [H|[H E]]; [left; exact H|right].
    destruct n as [|x r]; [discriminate|]. cbn [starts_with] in H. exists r.
    split; [|exact E]. destruct (Z.eqb_spec 46 x); [congruence|discriminate].
  - unfold o. cbn [GetOriginalName]. destruct (starts_with [46] n); [exists []; symmetry; apply app_nil_r|].
    destruct (find_dot n) as [i|]; [exists (skipn i n); symmetry; apply firstn_skipn|exists []; symmetry; apply app_nil_r].
Qed.
Print Assumptions C12_all_policy_names_have_no_suffix.

(** Whatever the policy and whichever names share a profile object: elision
    terminates without tripping its CHECK and the sum of every observation over
    the distinct profiles reachable from the map is unchanged: no sample is lost
    or counted twice. *)
Theorem C12_elision_loses_no_sample : forall pol m, smap_ok m ->
  exists m', ElideSuffixesAndMerge (GetOriginalName pol) m = Ok m' /\ smap_ok m' /\
    forall o, live_sum o m' mod 2 ^ 64 = live_sum o m mod 2 ^ 64.
Proof.
  intros pol m Hok. apply elide_all_ok; [exact Hok| |].
  - apply NoDup_filter. apply Hok.
  - intros y Hy. apply filter_In in Hy. tauto.
Qed.
Print Assumptions C12_elision_loses_no_sample.

Definition nm_a : name := [97].
Definition nm_a1 : name := [97; 46; 108; 108; 118; 109; 46; 49].                 (* a.llvm.1 *)
Definition nm_a12 : name := nm_a1 ++ [46; 108; 108; 118; 109; 46; 50].           (* a.llvm.1.llvm.2 *)
Definition nm_isra : name := [97; 46; 105; 115; 114; 97; 46; 48].                (* a.isra.0 *)
Definition ex_e : smap :=
  SMap [(nm_a1, 0%nat); (nm_a12, 1%nat)]
       [Sym 0 5 0 [(1, PInfo 5 1 [])] []; Sym 0 7 0 [(1, PInfo 7 1 [])] []].

Example C12_nonvacuous : smap_ok ex_e /\ unshared ex_e /\
  match ElideSuffixesAndMerge (GetOriginalName ElideAll) ex_e with
  | Ok m' => map fst (sm_names m') = [nm_a] /\
             option_map (fun s => count_at s [] 1) (sm_find m' nm_a) = Some 12
  | _ => False
  end.
Proof.
  split; [split; [|split]|split].
  - repeat constructor; cbn; intuition discriminate.
  - constructor; [sym_ok_tac|constructor; [sym_ok_tac|constructor]].
  - repeat constructor.
  - repeat constructor; cbn; intuition discriminate.
  - vm_compute. auto.
Qed.

(** The policy "selected" does not keep its promise: (a) ".isra" and ".lto_priv"
    are in its list but are never stripped; (b) only the last occurrence of a
    suffix is stripped, so an elided name may carry a suffix and the merged map
    depends on it: profiles of one original function stay apart. *)
Theorem C12_selected_policy_isra_refuted :
  In sfx_isra selectedSuffixes /\ In sfx_lto_priv selectedSuffixes /\
  forall n, GetOriginalName ElideSelected n =
    fold_left (elide_step n) [sfx_cold; sfx_llvm; sfx_part] n /\
    GetOriginalName ElideSelected nm_isra = nm_isra.
Proof.
  split; [unfold selectedSuffixes; cbn [In]; tauto|]. split; [unfold selectedSuffixes; cbn [In]; tauto|]. intros n. split; [|vm_compute; reflexivity].
  unfold GetOriginalName, selectedSuffixes. cbn [fold_left].
  assert (E1 : forall c, elide_step n c sfx_lto_priv = c).
  { intros c. unfold elide_step. cbn. rewrite andb_true_r. destruct (2 <=? zlen n); reflexivity. }
  assert (E2 : forall c, elide_step n c sfx_isra = c).
  { intros c. unfold elide_step. cbn. rewrite andb_true_r. destruct (2 <=? zlen n); reflexivity. }
  rewrite E1, E2. reflexivity.
Qed.
Print Assumptions C12_selected_policy_isra_refuted.

Theorem C12_selected_policy_not_idempotent_refuted :
  exists m m', smap_ok m /\ unshared m /\
    ElideSuffixesAndMerge (GetOriginalName ElideSelected) m = Ok m' /\
    exists n s, sm_find m' n = Some s /\ GetOriginalName ElideSelected n <> n /\
                0 < count_at s [] 1 /\ sm_find m' (GetOriginalName ElideSelected n) <> None.
Proof.
  exists ex_e. eexists. split; [apply C12_nonvacuous|]. split; [apply C12_nonvacuous|].
  split; [vm_compute; reflexivity|]. exists nm_a1. eexists.
  split; [vm_compute; reflexivity|]. split; [vm_compute; discriminate|]. split; [vm_compute; reflexivity|].
  vm_compute. discriminate.
Qed.
Print Assumptions C12_selected_policy_not_idempotent_refuted.
