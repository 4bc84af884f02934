(** Proofs about reading LLVM profiles, part 2: the whole merge. *)
From Verif Require Import Base AssocFold SrcOffsetModel SymbolModel SymbolSpec SymbolProofs AttribProofs
  AfdoModel AfdoReadProofs AfdoEffProofs ByteModel LlvmReadModel LlvmReadSpec LlvmReadProofs.

(** a map in which every name has its own object *)
Definition solo (m : smap) : Prop :=
  NoDup (akeys (sm_names m)) /\ map snd (sm_names m) = seq 0 (length (sm_heap m)).

Lemma solo_empty : solo (SMap [] []).
Proof. split; [constructor|reflexivity]. Qed.

Lemma name_eqb_refl n : name_eqb n n = true.
Proof. destruct (name_eqb_spec n n); congruence. Qed.

Lemma aget_idx (m : list (name * nat)) n i : aget name_eqb n m = Some i -> In i (map snd m).
Proof. intros E. apply aget_In in E; [|apply name_eqb_spec]. apply (in_map snd) in E. exact E. Qed.

Lemma solo_range m n i : solo m -> aget name_eqb n (sm_names m) = Some i -> (i < length (sm_heap m))%nat.
Proof. intros [_ S2] E. apply aget_idx in E. rewrite S2 in E. apply in_seq in E. lia. Qed.

Lemma NoDup_map_snd_inj {A B} (l : list (A * B)) a a' b :
  NoDup (map snd l) -> In (a, b) l -> In (a', b) l -> a = a'.
Proof.
  induction l as [|[x y] l IH]; cbn [map snd]; intros N I I'; [destruct I|].
  inversion N; subst. destruct I as [E|I], I' as [E'|I'].
  - congruence.
  - exfalso. apply H1. assert (y = b) by congruence. subst. apply (in_map snd) in I'. exact I'.
  - exfalso. apply H1. assert (y = b) by congruence. subst. apply (in_map snd) in I. exact I.
  - auto.
Qed.

Lemma solo_same m a b : solo m -> same_object m a b = true -> a = b.
Proof.
  intros [_ S2] E. unfold same_object in E.
  destruct (aget name_eqb a (sm_names m)) as [i|] eqn:Ea; [|discriminate].
  destruct (aget name_eqb b (sm_names m)) as [j|] eqn:Eb; [|discriminate].
  apply Nat.eqb_eq in E. subst j.
  apply aget_In in Ea; [|apply name_eqb_spec]. apply aget_In in Eb; [|apply name_eqb_spec].
  apply (NoDup_map_snd_inj (sm_names m) a b i); auto. rewrite S2. apply seq_NoDup.
Qed.

Lemma solo_find_update m n cur m' : solo m -> holds m n cur m' ->
  solo m' /\ forall n', sm_find m' n' = if name_eqb n' n then Some cur else sm_find m n'.
Proof.
  intros Sm H. destruct (holds_find m n cur m' H) as (A & B & C).
  assert (L : length (sm_heap m') = length (sm_heap m)).
  { unfold holds, sm_update in H. destruct (aget _ _ _); [|discriminate]. destruct (nth_error _ _); [|discriminate].
    injection H as <-. cbn [sm_heap]. apply length_set_nth. }
  split.
  - destruct Sm as [S1 S2]. split; rewrite C; auto. rewrite L. exact S2.
  - intros n'. rewrite B. destruct (name_eqb_spec n' n) as [->|Ne].
    + unfold holds, sm_update in H. unfold same_object.
      destruct (aget name_eqb n (sm_names m)); [rewrite Nat.eqb_refl; reflexivity|discriminate].
    + destruct (same_object m n' n) eqn:E; [|reflexivity]. apply solo_same in E; auto. congruence.
Qed.

Lemma solo_update m n f s : solo m -> sm_find m n = Some s ->
  exists m', sm_update n f m = Ok m' /\ solo m' /\
    forall n', sm_find m' n' = if name_eqb n' n then Some (f s) else sm_find m n'.
Proof.
  intros Sm F. destruct (holds_step m n s m f (holds_start m n s F)) as (m' & U & H).
  exists m'. split; [exact U|]. apply solo_find_update; auto.
Qed.

Lemma solo_find_None m n : solo m -> sm_find m n = None -> aget name_eqb n (sm_names m) = None.
Proof.
  intros Sm F. unfold sm_find in F. destruct (aget name_eqb n (sm_names m)) as [i|] eqn:E; [|reflexivity].
  pose proof (solo_range m n i Sm E). apply nth_error_None in F. lia.
Qed.

Definition or0 (o : option symbol) : symbol := match o with Some s => s | None => sym0 end.

Lemma solo_add m n : solo m ->
  solo (AddSymbol [] n m) /\
  forall n', sm_find (AddSymbol [] n m) n' = if name_eqb n' n then Some (or0 (sm_find m n)) else sm_find m n'.
Proof.
  intros Sm. destruct (sm_find m n) as [s|] eqn:F.
  - assert (E : exists i, aget name_eqb n (sm_names m) = Some i).
    { unfold sm_find in F. destruct (aget name_eqb n (sm_names m)); [eauto|discriminate]. }
    destruct E as [i E]. unfold AddSymbol. rewrite E. split; [exact Sm|].
    intros n'. destruct (name_eqb_spec n' n) as [->|]; [exact F|reflexivity].
  - pose proof (solo_find_None m n Sm F) as E. unfold AddSymbol. rewrite E. cbn [fold_left].
    assert (K : akeys (aset name_eqb n (length (sm_heap m)) (sm_names m)) = akeys (sm_names m) ++ [n] /\
                map snd (aset name_eqb n (length (sm_heap m)) (sm_names m))
                = map snd (sm_names m) ++ [length (sm_heap m)]).
    { clear Sm F. generalize (length (sm_heap m)). intros i. induction (sm_names m) as [|[k j] l IH]; [split; reflexivity|].
      cbn [aget] in E. cbn [aset]. destruct (name_eqb n k) eqn:X; [discriminate|].
      destruct (IH E) as [A B]. cbn [akeys map fst snd app] in *. unfold akeys in A. rewrite A, B. split; reflexivity. }
    destruct K as [K1 K2]. destruct Sm as [S1 S2]. split.
    + split; cbn [sm_names sm_heap].
      * rewrite K1. apply NoDup_snoc; auto. apply (aget_None_iff name_eqb name_eqb_spec); exact E.
      * rewrite K2, S2, app_length, seq_app. reflexivity.
    + intros n'. unfold sm_find. cbn [sm_names sm_heap]. rewrite aget_aset by apply name_eqb_spec.
      destruct (name_eqb_spec n' n) as [->|Ne].
      * rewrite nth_error_app2 by lia. rewrite Nat.sub_diag. reflexivity.
      * destruct (aget name_eqb n' (sm_names m)) as [i|] eqn:E'; [|reflexivity].
        apply nth_error_app1. apply (solo_range m n' i); [split; auto|exact E'].
Qed.

Section Merge.
  Variables (base : Z -> Z) (orig : name -> name).

  Definition add_entry (h t : Z) (s : symbol) : symbol :=
    match s with Sym h0 t0 ts p cs => Sym (add64 h0 h) (add64 t0 t) ts p cs end.

  (** the effect of one top-level function on the symbol of its name *)
  Definition eff_top (f : fsamples) (s : symbol) : symbol :=
    let s := eff_fun base orig [] f (add_entry (fs_head f) 0 s) in
    if s_total s =? 0 then add_entry 0 (fs_total f) s else s.

  Lemma read_top f m : solo m ->
    exists m', read_function base orig [] f m = Ok m' /\ solo m' /\
      forall n', sm_find m' n' = if name_eqb n' (fs_name f) then Some (eff_top f (or0 (sm_find m (fs_name f)))) else sm_find m n'.
  Proof.
    intros Sm. destruct f as [n h t body calls]. cbn [fs_name read_function].
    destruct (solo_add m n Sm) as [Sa Fa]. set (ma := AddSymbol [] n m) in *.
    assert (Fn : sm_find ma n = Some (or0 (sm_find m n))) by (rewrite Fa, name_eqb_refl; reflexivity).
    set (s := or0 (sm_find m n)) in *.
    pose proof (holds_start ma n s Fn) as H0.
    destruct (holds_step ma n s ma (add_entry h 0) H0) as (m1 & U1 & H1).
    change (AddSymbolEntryCount n h 0 ma = Ok m1) in U1. rewrite U1. cbn [obind].
    destruct (read_samples_holds base orig ma n [] body m1 _ H1) as (m2 & E2 & H2).
    rewrite E2. cbn [obind].
    change (fix go (l : list ((Z * Z) * fsamples)) (m : smap) : outcome smap := _)
      with (read_callees base orig n []).
    change (top_name n []) with n in H2.
    assert (G : forall cs m cur, holds ma n cur m ->
      exists m', read_callees base orig n [] cs m = Ok m' /\ holds ma n (eff_callees base orig n [] cs cur) m').
    { clearbody ma. clear. induction cs as [|[ld g] cs IHc]; intros m cur H; [exists m; split; [reflexivity|exact H]|].
      cbn [read_callees].
      destruct (read_nested_holds base orig g [frame n ld] ma m cur) as (m1 & E1 & H1); [discriminate|exact H|].
      rewrite E1. cbn [obind]. change (top_name (fs_name g) [frame n ld]) with n in H1.
      destruct (IHc m1 _ H1) as (m' & A & B). exists m'. split; [exact A|exact B]. }
    destruct (G calls m2 _ H2) as (m3 & E3 & H3). rewrite E3. cbn [obind].
    rewrite <- (eff_fun_eq base orig [] n h t body calls) in H3.
    destruct (solo_find_update ma n _ m3 Sa H3) as [S3 F3].
    rewrite F3, name_eqb_refl.
    set (s3 := eff_fun base orig [] (FS n h t body calls) (add_entry h 0 s)) in *.
    assert (Et : eff_top (FS n h t body calls) s = if s_total s3 =? 0 then add_entry 0 t s3 else s3) by reflexivity.
    destruct (s_total s3 =? 0) eqn:Z0.
    - destruct (holds_step ma n s3 m3 (add_entry 0 t) H3) as (m4 & U4 & H4).
      exists m4. split; [exact U4|]. destruct (solo_find_update ma n _ m4 Sa H4) as [S4 F4].
      split; [exact S4|]. intros n'. rewrite F4, Fa, Et. destruct (name_eqb n' n); reflexivity.
    - exists m3. split; [reflexivity|]. split; [exact S3|]. intros n'. rewrite F3, Fa, Et.
      destruct (name_eqb n' n); reflexivity.
  Qed.

  (** what one name sees: whether it is skipped, and its symbol *)
  Definition view (n : name) (st : rstate) : bool * option symbol :=
    (existsb (name_eqb n) (fst st), sm_find (snd st) n).

  Definition in_list (l : list name) (n : name) : bool := existsb (fun pre => starts_with pre n) l.

  Definition zero_counts (s : symbol) : symbol := match s with Sym _ _ ts p cs => Sym 0 0 ts p cs end.

  Definition step (sp : option special) (f : fsamples) (v : bool * option symbol) : bool * option symbol :=
    let n := fs_name f in
    let merge := (fst v, Some (eff_top f (or0 (snd v)))) in
    match sp with
    | None => merge
    | Some sp =>
        if fst v then v
        else if in_list (strip_all sp) n then v
        else if in_list (keep_sole sp) n then
          match snd v with None => merge | Some s => (true, Some (zero_counts s)) end
        else if in_list (keep_cold sp) n then
          match snd v with None => (true, Some cold_symbol) | Some _ => v end
        else merge
    end.

  Lemma read_entry_view sp f st : solo (snd st) ->
    exists st', read_entry base orig sp f st = Ok st' /\ solo (snd st') /\
      forall n, view n st' = if name_eqb n (fs_name f) then step sp f (view n st) else view n st.
  Proof.
    intros Sm. destruct st as [skip m]. cbn [snd] in Sm. unfold read_entry, should_merge.
    set (n0 := fs_name f).
    assert (Merge : exists st', (let! m := read_function base orig [] f m in Ok (skip, m)) = Ok st' /\ solo (snd st') /\
       forall n, view n st' = if name_eqb n n0 then (existsb (name_eqb n) skip, Some (eff_top f (or0 (sm_find m n0))))
                              else view n (skip, m)).
    { destruct (read_top f m Sm) as (m' & E & S' & F'). rewrite E. cbn [obind]. exists (skip, m').
      split; [reflexivity|]. split; [exact S'|]. intros n. unfold view. cbn [fst snd]. rewrite F'. fold n0.
      destruct (name_eqb n n0); reflexivity. }
    assert (Stay : exists st', Ok (skip, m) = Ok st' /\ solo (snd st') /\
       forall n, view n st' = if name_eqb n n0 then view n (skip, m) else view n (skip, m)).
    { exists (skip, m). split; [reflexivity|]. split; [exact Sm|]. intros n. destruct (name_eqb n n0); reflexivity. }
    destruct sp as [sp|].
    2:{ cbn [obind fst snd]. destruct Merge as (st' & A & B & C). exists st'. split; [exact A|]. split; [exact B|].
        intros n. rewrite C. destruct (name_eqb_spec n n0) as [->|]; reflexivity. }
    destruct (existsb (name_eqb n0) skip) eqn:Sk.
    { cbn [obind]. destruct Stay as (st' & A & B & C). exists st'. split; [exact A|]. split; [exact B|].
      intros n. rewrite C. destruct (name_eqb_spec n n0) as [->|]; [|reflexivity].
      unfold step, view. cbn [fst snd]. rewrite Sk. reflexivity. }
    change (existsb (fun pre => starts_with pre n0) (strip_all sp)) with (in_list (strip_all sp) n0).
    change (existsb (fun pre => starts_with pre n0) (keep_sole sp)) with (in_list (keep_sole sp) n0).
    change (existsb (fun pre => starts_with pre n0) (keep_cold sp)) with (in_list (keep_cold sp) n0).
    destruct (in_list (strip_all sp) n0) eqn:L1.
    { cbn [obind]. destruct Stay as (st' & A & B & C). exists st'. split; [exact A|]. split; [exact B|].
      intros n. rewrite C. destruct (name_eqb_spec n n0) as [->|]; [|reflexivity].
      unfold step, view. fold n0. cbn [fst snd]. rewrite Sk, L1. reflexivity. }
    destruct (in_list (keep_sole sp) n0) eqn:L2.
    { destruct (sm_find m n0) as [s|] eqn:F.
      - destruct (solo_update m n0 zero_counts s Sm F) as (m' & U & S' & F').
        unfold RemoveSymbol. assert (exists i, aget name_eqb n0 (sm_names m) = Some i) as [i Ei].
        { unfold sm_find in F. destruct (aget name_eqb n0 (sm_names m)); [eauto|discriminate]. }
        rewrite Ei. change (sm_update n0 zero_counts m) with
          (sm_update n0 (fun s => match s with Sym _ _ ts p cs => Sym 0 0 ts p cs end) m) in U.
        rewrite U. cbn [obind]. exists (n0 :: skip, m'). split; [reflexivity|]. split; [exact S'|].
        intros n. unfold step, view. fold n0. cbn [fst snd existsb]. rewrite F'.
        destruct (name_eqb_spec n n0) as [->|Ne]; [|reflexivity]. rewrite Sk, L1, L2, F. reflexivity.
      - cbn [obind fst snd]. destruct Merge as (st' & A & B & C). exists st'. split; [exact A|]. split; [exact B|].
        intros n. rewrite C. destruct (name_eqb_spec n n0) as [->|]; [|reflexivity].
        unfold step, view. fold n0. cbn [fst snd]. rewrite Sk, L1, L2, F. reflexivity. }
    destruct (in_list (keep_cold sp) n0) eqn:L3.
    { destruct (sm_find m n0) as [s|] eqn:F.
      - cbn [obind]. destruct Stay as (st' & A & B & C). exists st'. split; [exact A|]. split; [exact B|].
        intros n. rewrite C. destruct (name_eqb_spec n n0) as [->|]; [|reflexivity].
        unfold step, view. fold n0. cbn [fst snd]. rewrite Sk, L1, L2, L3, F. reflexivity.
      - destruct (solo_add m n0 Sm) as [Sa Fa]. rewrite F in Fa. cbn [or0] in Fa.
        assert (Fn : sm_find (AddSymbol [] n0 m) n0 = Some sym0) by (rewrite Fa, name_eqb_refl; reflexivity).
        destruct (solo_update _ n0 (add_entry 0 (kMinSamples + 1)) sym0 Sa Fn) as (m' & U & S' & F').
        change (AddSymbolEntryCount n0 0 (kMinSamples + 1) (AddSymbol [] n0 m) = Ok m') in U. rewrite U. cbn [obind].
        exists (n0 :: skip, m'). split; [reflexivity|]. split; [exact S'|].
        intros n. unfold step, view. fold n0. cbn [fst snd existsb]. rewrite F', Fa.
        destruct (name_eqb_spec n n0) as [->|Ne]; [|reflexivity]. rewrite Sk, L1, L2, L3, F. reflexivity. }
    cbn [obind fst snd]. destruct Merge as (st' & A & B & C). exists st'. split; [exact A|]. split; [exact B|].
    intros n. rewrite C. destruct (name_eqb_spec n n0) as [->|]; [|reflexivity].
    unfold step, view. fold n0. cbn [fst snd]. rewrite Sk, L1, L2, L3. reflexivity.
  Qed.

  Lemma read_profile_view sp fs : forall st, solo (snd st) ->
    exists st', read_profile base orig sp fs st = Ok st' /\ solo (snd st') /\
      forall n, view n st' = fold_left (fun v f => step sp f v) (filter (fun f => name_eqb (fs_name f) n) fs) (view n st).
  Proof.
    induction fs as [|f fs IH]; intros st Sm.
    - exists st. split; [reflexivity|]. split; [exact Sm|]. reflexivity.
    - cbn [read_profile]. destruct (read_entry_view sp f st Sm) as (s1 & E & S1 & V1). rewrite E. cbn [obind].
      destruct (IH s1 S1) as (s2 & E2 & S2 & V2). exists s2. split; [exact E2|]. split; [exact S2|].
      intros n. rewrite V2, V1. cbn [filter].
      destruct (name_eqb_spec n (fs_name f)) as [->|Ne].
      + rewrite name_eqb_refl. reflexivity.
      + destruct (name_eqb_spec (fs_name f) n); [congruence|reflexivity].
  Qed.

  Lemma read_profiles_view sp ps : forall st, solo (snd st) ->
    exists st', read_profiles base orig sp ps st = Ok st' /\ solo (snd st') /\
      forall n, view n st' = fold_left (fun v f => step sp f v) (occurrences ps n) (view n st).
  Proof.
    induction ps as [|p ps IH]; intros st Sm.
    - exists st. split; [reflexivity|]. split; [exact Sm|]. reflexivity.
    - cbn [read_profiles]. destruct (read_profile_view sp p st Sm) as (s1 & E & S1 & V1). rewrite E. cbn [obind].
      destruct (IH s1 S1) as (s2 & E2 & S2 & V2). exists s2. split; [exact E2|]. split; [exact S2|].
      intros n. rewrite V2, V1. unfold occurrences. cbn [concat]. rewrite filter_app, fold_left_app. reflexivity.
  Qed.

  (** *** Following one name *)
  Lemma starts_with_spec pre n : starts_with pre n = true <-> begins pre n.
  Proof.
    revert n. induction pre as [|x pre IH]; intros n; cbn [starts_with].
    - split; [intros _; exists n; reflexivity|reflexivity].
    - destruct n as [|y n].
      + split; [discriminate|]. intros [r E]. discriminate.
      + rewrite andb_true_iff, Z.eqb_eq, IH. split.
        * intros [-> [r ->]]. exists r. reflexivity.
        * intros [r E]. cbn [app] in E. injection E as -> ->. split; [reflexivity|exists r; reflexivity].
  Qed.
  Lemma in_list_spec l n : in_list l n = true <-> Exists (fun pre => begins pre n) l.
  Proof.
    unfold in_list. rewrite existsb_exists, Exists_exists. split; intros (x & A & B); exists x; split; auto;
      apply starts_with_spec; auto.
  Qed.
  Lemma in_list_false l n : ~ Exists (fun pre => begins pre n) l -> in_list l n = false.
  Proof. intros H. destruct (in_list l n) eqn:E; auto. apply in_list_spec in E. tauto. Qed.

  Definition eff_tops (fs : list fsamples) (s : symbol) : symbol := fold_left (fun s f => eff_top f s) fs s.

  Lemma steps_plain sp n fs v : kind_of sp n Plain -> Forall (fun f => fs_name f = n) fs -> fst v = false ->
    fold_left (fun v f => step sp f v) fs v =
    (false, match fs with [] => snd v | _ => Some (eff_tops fs (or0 (snd v))) end).
  Proof.
    intros K. revert v. induction fs as [|f fs IH]; intros v F Ev.
    - destruct v as [b o]. cbn in *. congruence.
    - inversion F as [|? ? En F']; subst. cbn [fold_left].
      assert (Es : step sp f v = (false, Some (eff_top f (or0 (snd v))))).
      { unfold step. destruct sp as [sp|]; [|rewrite Ev; reflexivity]. cbn [kind_of] in K. destruct K as (K1 & K2 & K3).
        rewrite Ev, !in_list_false by auto. reflexivity. }
      rewrite Es, IH by auto. cbn [snd fst or0]. destruct fs; reflexivity.
  Qed.
  Lemma steps_skipped sp fs o : fold_left (fun v f => step (Some sp) f v) fs (true, o) = (true, o).
  Proof. induction fs as [|f fs IH]; [reflexivity|]. cbn [fold_left]. exact IH. Qed.
  Lemma steps_strip sp n fs : kind_of sp n Strip -> Forall (fun f => fs_name f = n) fs ->
    fold_left (fun v f => step sp f v) fs (false, None) = (false, None).
  Proof.
    intros K. induction fs as [|f fs IH]; intros F; [reflexivity|]. inversion F; subst. cbn [fold_left].
    assert (Es : step sp f (false, None) = (false, None)).
    { unfold step. destruct sp as [sp|]; [|discriminate K]. cbn [kind_of] in K. apply in_list_spec in K.
      cbn [fst snd]. rewrite K. reflexivity. }
    rewrite Es. auto.
  Qed.
  Lemma steps_sole sp n fs : kind_of sp n Sole -> Forall (fun f => fs_name f = n) fs ->
    snd (fold_left (fun v f => step sp f v) fs (false, None)) =
    match fs with
    | [] => None
    | [f] => Some (eff_top f sym0)
    | f :: _ => Some (zero_counts (eff_top f sym0))
    end.
  Proof.
    intros K F. destruct sp as [sp|]; [|discriminate K]. cbn [kind_of] in K. destruct K as [K1 K2].
    apply in_list_spec in K1. apply in_list_false in K2.
    destruct fs as [|f fs]; [reflexivity|]. inversion F as [|? ? En F']; subst. cbn [fold_left].
    assert (Es : step (Some sp) f (false, None) = (false, Some (eff_top f sym0))).
    { unfold step. cbn [fst snd or0]. rewrite K1, K2. reflexivity. }
    rewrite Es. destruct fs as [|g fs]; [reflexivity|]. inversion F' as [|? ? Eg F'']; subst. cbn [fold_left].
    assert (Es2 : step (Some sp) g (false, Some (eff_top f sym0)) = (true, Some (zero_counts (eff_top f sym0)))).
    { unfold step. cbn [fst snd or0]. rewrite Eg, K1, K2. reflexivity. }
    rewrite Es2, steps_skipped. reflexivity.
  Qed.
  Lemma steps_cold sp n fs : kind_of sp n Cold -> Forall (fun f => fs_name f = n) fs ->
    snd (fold_left (fun v f => step sp f v) fs (false, None)) =
    match fs with [] => None | _ => Some cold_symbol end.
  Proof.
    intros K F. destruct sp as [sp|]; [|discriminate K]. cbn [kind_of] in K. destruct K as (K1 & K2 & K3).
    apply in_list_spec in K1. apply in_list_false in K2, K3.
    destruct fs as [|f fs]; [reflexivity|]. inversion F as [|? ? En F']; subst. cbn [fold_left].
    assert (Es : step (Some sp) f (false, None) = (true, Some cold_symbol)).
    { unfold step. cbn [fst snd or0]. rewrite K1, K2, K3. reflexivity. }
    rewrite Es, steps_skipped. reflexivity.
  Qed.

  (** *** The effect of the functions is their sum *)
  Lemma add_entry_obs h t s : forall q l u,
    has_node (add_entry h t s) q = has_node s q /\
    total_at (add_entry h t s) q = (match q with [] => add64 (total_at s q) t | _ => total_at s q end) /\
    head_at (add_entry h t s) q = (match q with [] => add64 (head_at s q) h | _ => head_at s q end) /\
    has_pos (add_entry h t s) q l = has_pos s q l /\
    count_at (add_entry h t s) q l = count_at s q l /\ ninst_at (add_entry h t s) q l = ninst_at s q l /\
    target_at (add_entry h t s) q l u = target_at s q l u /\ has_target (add_entry h t s) q l u = has_target s q l u.
  Proof. intros q l u. destruct s as [h0 t0 ts p cs]. destruct q; repeat split. Qed.
  Lemma add_entry_ok h t s : sym_ok s -> sym_ok (add_entry h t s).
  Proof. intros []. cbn [add_entry]. constructor; auto; apply add64_range. Qed.

  Lemma path_of_nil n : path_of base n [] = [].
  Proof. reflexivity. Qed.

  Lemma zsum_all rs : filter (fun r => is_prefix [] (r_path r)) rs = rs.
  Proof. induction rs as [|r rs IH]; [reflexivity|]. change (r :: filter (fun r => is_prefix [] (r_path r)) rs = r :: rs). rewrite IH. reflexivity. Qed.

  (** the state after the functions [fs] have been read into one symbol *)
  Definition so_far (fs : list fsamples) (s : symbol) : Prop := sym_ok s /\ is_merge_of base orig fs s.

  Lemma eff_top_obs f s : fs_ok base f -> sym_ok s ->
    let b := eff_top f s in let rs := srecs base [] f in
    sym_ok b /\ s_head b = u64 (s_head s + fs_head f) /\
    s_total b = (let t := u64 (s_total s + sampled base f) in if t =? 0 then fs_total f else t) /\
    forall q l u,
      has_node b q = has_node s q || nonempty (filter (fun r => is_prefix q (r_path r)) rs) /\
      (q <> [] -> total_at b q = u64 (total_at s q + zsum (map r_count (filter (fun r => is_prefix q (r_path r)) rs)))) /\
      (q <> [] -> head_at b q = head_at s q) /\
      has_pos b q l = has_pos s q l || nonempty (filter (at_pl q l) rs) /\
      count_at b q l = u64 (count_at s q l + zsum (map r_count (filter (at_pl q l) rs))) /\
      ninst_at b q l = u64 (ninst_at s q l + Z.of_nat (length (filter (at_pl q l) rs))) /\
      target_at b q l u = last (target_counts orig (filter (at_pl q l) rs) u) (target_at s q l u) /\
      has_target b q l u = has_target s q l u || nonempty (target_counts orig (filter (at_pl q l) rs) u).
  Proof.
    intros (U1 & U2 & F) Hs. unfold eff_top. cbv zeta.
    pose proof (add_entry_ok (fs_head f) 0 s Hs) as Ok1.
    pose proof (add_entry_obs (fs_head f) 0 s) as O1. set (s1 := add_entry (fs_head f) 0 s) in *.
    destruct (eff_fun_adds base orig f [] s1 Ok1) as [Ok2 A].
    { rewrite path_of_nil. exact F. }
    rewrite path_of_nil in A. set (s2 := eff_fun base orig [] f s1) in *.
    pose proof (sym_ok_total s Hs) as Us. pose proof (sym_ok_head s Hs) as Uh.
    assert (T2 : s_total s2 = u64 (s_total s + sampled base f)).
    { destruct (A [] 0 []) as (_ & X & _). destruct (O1 [] 0 []) as (_ & Y & _).
      rewrite zsum_all in X. change (total_at s2 []) with (s_total s2) in X.
      change (total_at s1 []) with (s_total s1) in *. change (total_at s []) with (s_total s) in *.
      rewrite X, Y, add64_0_r by auto. reflexivity. }
    assert (H2 : s_head s2 = u64 (s_head s + fs_head f)).
    { destruct (A [] 0 []) as (_ & _ & X & _). destruct (O1 [] 0 []) as (_ & _ & Y & _).
      change (head_at s2 []) with (s_head s2) in X.
      change (head_at s1 []) with (s_head s1) in *. change (head_at s []) with (s_head s) in *.
      rewrite X, Y. reflexivity. }
    pose proof (add_entry_ok 0 (fs_total f) s2 Ok2) as Ok3.
    pose proof (add_entry_obs 0 (fs_total f) s2) as O3. set (s3 := add_entry 0 (fs_total f) s2) in *.
    assert (H3 : s_head s3 = s_head s2).
    { unfold s3. destruct s2 as [h0 t0 ts p cs]. cbn [add_entry s_head]. rewrite add64_0_r; auto.
      apply (sym_ok_head _ Ok2). }
    assert (T3 : s_total s2 = 0 -> s_total s3 = fs_total f).
    { unfold s3. destruct s2 as [h0 t0 ts p cs]. cbn [add_entry s_total]. intros ->. apply add64_0_l. exact U2. }
    split; [destruct (s_total s2 =? 0); auto|].
    split; [destruct (s_total s2 =? 0); rewrite ?H3; exact H2|].
    split.
    { rewrite <- T2. destruct (Z.eqb_spec (s_total s2) 0); [apply T3; auto|reflexivity]. }
    intros q l u. destruct (A q l u) as (A1 & A2 & A3 & A4 & A5 & A6 & A7 & A8).
    destruct (O1 q l u) as (B1 & B2 & B3 & B4 & B5 & B6 & B7 & B8).
    destruct (O3 q l u) as (C1 & C2 & C3 & C4 & C5 & C6 & C7 & C8).
    destruct (s_total s2 =? 0); rewrite ?C1, ?C2, ?C3, ?C4, ?C5, ?C6, ?C7, ?C8, A1, A2, A3, A4, A5, A6, A7, A8,
      B1, B2, B3, B4, B5, B6, B7, B8.
    - split; [reflexivity|]. split; [destruct q; [congruence|reflexivity]|]. split; [destruct q; [congruence|reflexivity]|].
      repeat split.
    - split; [reflexivity|]. split; [destruct q; [congruence|reflexivity]|]. split; [destruct q; [congruence|reflexivity]|].
      repeat split.
  Qed.

  Lemma total_rule_snoc fs f : forall T, total_rule base T (fs ++ [f]) =
    (let t := u64 (total_rule base T fs + sampled base f) in if t =? 0 then fs_total f else t).
  Proof. induction fs as [|g fs IH]; intros T; [reflexivity|]. cbn [app total_rule]. apply IH. Qed.

  Lemma so_far_nil : so_far [] sym0.
  Proof.
    split; [apply sym0_ok|]. split; [reflexivity|]. split; [reflexivity|]. intros q l t.
    unfold recs_at, recs_under. cbn [flat_map filter map length target_counts last].
    split.
    { destruct q as [|k q]; [|split; [discriminate|intros [X|X]; [discriminate X|elim X; reflexivity]]].
      split; [auto|reflexivity]. }
    destruct q as [|k q].
    - repeat (split; [first [congruence|reflexivity]|]). split; [discriminate|intros X; elim X; reflexivity].
    - repeat (split; [first [congruence|reflexivity]|]). split; [discriminate|intros X; elim X; reflexivity].
  Qed.

  Lemma nonempty_false {A} (l : list A) : nonempty l = negb (match l with [] => true | _ => false end).
  Proof. destruct l; reflexivity. Qed.
  Lemma nonempty_true {A} (l : list A) : nonempty l = true <-> l <> [].
  Proof. destruct l; cbn; split; congruence. Qed.
  Lemma app_ne {A} (a b : list A) : a ++ b <> [] <-> a <> [] \/ b <> [].
  Proof.
    destruct a as [|x a]; cbn [app]; split; intros H.
    - right; exact H.
    - destruct H as [H|H]; [congruence|exact H].
    - left; congruence.
    - congruence.
  Qed.

  Lemma so_far_step fs f s : fs_ok base f -> so_far fs s -> so_far (fs ++ [f]) (eff_top f s).
  Proof.
    intros Hf [Hs (M1 & M2 & M3)].
    destruct (eff_top_obs f s Hf Hs) as (Ok & H & T & O). split; [exact Ok|].
    split; [rewrite H, M1, map_app, zsum_app; cbn [map]; change (zsum [fs_head f]) with (fs_head f + 0);
            rewrite Z.add_0_r; apply sub_u64|].
    split; [rewrite total_rule_snoc, <- M2; exact T|].
    intros q l t. destruct (M3 q l t) as (B1 & B2 & B3 & B4 & B5 & B6 & B7 & B8).
    destruct (O q l t) as (A1 & A2 & A3 & A4 & A5 & A6 & A7 & A8).
    unfold recs_at, recs_under in *. rewrite flat_map_app. cbn [flat_map]. rewrite app_nil_r, !filter_app, !map_app,
      !zsum_app, app_length, target_counts_app, last_app, Nat2Z.inj_add.
    change (fun r : srec => path_eqb (r_path r) q && (r_loc r =? l)) with (at_pl q l) in *.
    split; [rewrite A1, orb_true_iff, B1, nonempty_true, app_ne; clear; tauto|].
    split; [intros N; rewrite A3 by auto; auto|].
    split; [intros N; rewrite A2, B3 by auto; apply sub_u64|].
    split; [rewrite A4, B4, nonempty_false, <- negb_andb; f_equal; destruct (filter (at_pl q l) (flat_map _ fs)); reflexivity|].
    split; [rewrite A5, B5; apply sub_u64|].
    split; [rewrite A6, B6; apply sub_u64|].
    split; [rewrite A7, B7; reflexivity|].
    rewrite A8, orb_true_iff, B8, nonempty_true, app_ne. clear. tauto.
  Qed.

  Lemma eff_tops_so_far fs : Forall (fs_ok base) fs -> so_far fs (eff_tops fs sym0).
  Proof.
    intros F. cut (forall done s, so_far done s -> so_far (done ++ fs) (eff_tops fs s)).
    { intros H. exact (H [] sym0 so_far_nil). }
    induction fs as [|f fs IH]; intros dn s H; [rewrite app_nil_r; exact H|].
    inversion F; subst. change (dn ++ f :: fs) with (dn ++ [f] ++ fs). rewrite app_assoc.
    apply (IH ltac:(assumption) _ (eff_top f s)). apply so_far_step; auto.
  Qed.

End Merge.

  (** *** The output *)
  Lemma emitted_spec thr m n s : solo m ->
    (In (n, s) (emitted thr m) <-> sm_find m n = Some s /\ thr < s64 (s_total s)).
  Proof.
    intros [S1 S2]. unfold emitted. rewrite in_flat_map. split.
    - intros ([k i] & I & J). cbn [fst snd] in J.
      destruct (nth_error (sm_heap m) i) as [x|] eqn:E; [|destruct J].
      unfold ShouldEmit in J. destruct (Z.ltb_spec thr (s64 (s_total x))); [|destruct J].
      destruct J as [J|[]]. assert (k = n /\ x = s) as [-> ->] by (split; congruence).
      split; [|assumption]. unfold sm_find. rewrite (aget_NoDup_In name_eqb name_eqb_spec n i); auto.
    - intros [F L]. unfold sm_find in F. destruct (aget name_eqb n (sm_names m)) as [i|] eqn:E; [|discriminate].
      exists (n, i). split; [apply aget_In in E; auto using name_eqb_spec|]. cbn [fst snd]. rewrite F.
      unfold ShouldEmit. destruct (Z.ltb_spec thr (s64 (s_total s))); [left; reflexivity|lia].
  Qed.

  Lemma emitted_NoDup thr m : solo m -> NoDup (map fst (emitted thr m)).
  Proof.
    intros [S1 _]. unfold emitted. induction (sm_names m) as [|[k i] l IH]; [constructor|].
    cbn [akeys map fst] in S1. inversion S1; subst. cbn [flat_map fst snd].
    rewrite map_app. specialize (IH H2).
    assert (X : forall y, In y (map fst (flat_map (fun kv => match nth_error (sm_heap m) (snd kv) with
       | Some s => if ShouldEmit thr (s_total s) then [(fst kv, s)] else [] | None => [] end) l)) -> In y (akeys l)).
    { intros y J. apply in_map_iff in J as ([y' s'] & <- & J). apply in_flat_map in J as ([k' i'] & I & J).
      cbn [fst snd] in J. destruct (nth_error _ i'); [|destruct J]. destruct (ShouldEmit _ _); [|destruct J].
      destruct J as [J|[]]. assert (k' = y') as <- by congruence. apply (in_map fst) in I. exact I. }
    destruct (nth_error (sm_heap m) i) as [s|]; [|exact IH].
    destruct (ShouldEmit thr (s_total s)); [|exact IH]. cbn [map app fst]. constructor; [|exact IH].
    intros J. apply X in J. contradiction.
  Qed.

  Lemma threshold_min scale m : kMinSamples <= CalculateThreshold scale m /\
    ((forall x, scale x <= kMinSamples) -> CalculateThreshold scale m = kMinSamples).
  Proof.
    unfold CalculateThreshold. set (z := scale _).
    assert (E : z = z) by reflexivity. 
    destruct (Z.ltb_spec z kMinSamples); split; try lia.
    intros H'. specialize (H' (fold_left (fun a kv => s64 (u64 (a + match nth_error (sm_heap m) (snd kv) with
      Some s => s_total s | None => 0 end))) (sm_names m) 0)). fold z in H'. lia.
  Qed.
