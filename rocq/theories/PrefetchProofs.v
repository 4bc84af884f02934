(** Proofs about prefetch hints: the loop that adds them to a profile. *)
From Verif Require Import Base SymbolModel SymbolSpec SymbolProofs SymbolProps AttribProofs ElideModel ElideProofs ElideProps
  ProfileProofs PartsProps AddrModel SampleModel SampleProofs PrefetchModel PrefetchSpec.
Import ListNotations.
Open Scope Z_scope.

Lemma same_object_unshared m a b s : smap_ok m -> unshared m -> sm_find m b = Some s ->
  same_object m a b = name_eqb a b.
Proof.
  intros (ND & _ & _) UN F. unfold same_object. unfold sm_find in F.
  destruct (aget name_eqb b (sm_names m)) as [j|] eqn:Eb; [|discriminate].
  destruct (name_eqb_spec a b) as [-> | NE].
  - rewrite Eb. apply Nat.eqb_refl.
  - destruct (aget name_eqb a (sm_names m)) as [i|] eqn:Ea; [|reflexivity].
    apply Nat.eqb_neq. intros ->. apply NE.
    apply (aget_In name_eqb name_eqb_spec) in Ea. apply (aget_In name_eqb name_eqb_spec) in Eb.
    clear F. unfold unshared in UN. clear ND.
    revert Ea Eb UN. generalize (sm_names m) as l. intros l.
    induction l as [|[n k] l IH]; [intros []|]. cbn [map snd In]. intros Ha Hb UN. inversion UN as [|? ? NI UN']; subst.
    destruct Ha as [Ha|Ha], Hb as [Hb|Hb].
    + congruence.
    + injection Ha as -> ->. exfalso. apply NI. apply (in_map snd) in Hb. exact Hb.
    + injection Hb as -> ->. exfalso. apply NI. apply (in_map snd) in Ha. exact Ha.
    + auto.
Qed.

Lemma update_ok n f m m' : smap_ok m -> unshared m -> (forall s, sym_ok s -> sym_ok (f s)) ->
  sm_update n f m = Ok m' -> smap_ok m' /\ unshared m' /\ sm_names m' = sm_names m.
Proof.
  intros (A & B & C) UN K. unfold sm_update. destruct (aget _ _ _) as [i|]; [|discriminate].
  destruct (nth_error (sm_heap m) i) as [s|] eqn:E; [|discriminate]. intros Q. injection Q as <-.
  unfold smap_ok, unshared. cbn [sm_names sm_heap]. rewrite set_nth_length. repeat split; auto.
  apply set_nth_Forall; auto. apply K. rewrite Forall_forall in B. apply B. eapply nth_error_In; eauto.
Qed.

Lemma find_ok m n s : smap_ok m -> sm_find m n = Some s -> sym_ok s.
Proof.
  intros (_ & B & _). unfold sm_find. destruct (aget _ _ _); [|discriminate]. intros F.
  rewrite Forall_forall in B. apply B. eapply nth_error_In; eauto.
Qed.

(** What one call of AddIndirectCallTarget does. *)
Lemma hint_step base orig n leaf outer t c m s :
  smap_ok m -> unshared m -> sm_find m n = Some s -> is_u64 c ->
  let src := leaf :: outer in
  let P := stack_path base false (rev src) in
  let off := si_offset base leaf in
  exists m' s', AddIndirectCallTarget base orig false n src t c m = Ok m' /\
    smap_ok m' /\ unshared m' /\
    (forall x, sm_find m' x = if name_eqb x n then Some s' else sm_find m x) /\
    forall q l u,
      has_node s' q = has_node s q || is_prefix q P /\
      total_at s' q = total_at s q /\ head_at s' q = head_at s q /\
      has_pos s' q l = has_pos s q l || (path_eqb q P && (l =? off)) /\
      count_at s' q l = count_at s q l /\ ninst_at s' q l = ninst_at s q l /\
      has_target s' q l u = (path_eqb q P && (l =? off) && name_eqb u (orig t)) || has_target s q l u /\
      target_at s' q l u = if path_eqb q P && (l =? off) && name_eqb u (orig t) then c else target_at s q l u.
Proof.
  intros OK UN F C src P off.
  destruct (C08_add_indirect_call_target base orig false n leaf outer t c m s F (find_ok _ _ _ OK F) C)
    as (m' & s' & E & FD & _ & X).
  exists m', s'. split; [exact E|].
  assert (W : smap_ok m' /\ unshared m' /\ sm_names m' = sm_names m).
  { unfold AddIndirectCallTarget in E. eapply update_ok; [exact OK|exact UN| |exact E].
    intros s0 K. cbn [andb]. apply (osn_ok base false 0 (si_offset base leaf)
      (fun p => PInfo (p_count p) (p_ninst p) (aset name_eqb (orig t) c (p_targets p))) true); auto.
    intros i (I1 & I2 & I3 & I4). split; [exact I1|]. split; [exact I2|]. cbn [p_targets]. split.
    - apply (NoDup_akeys_aset name_eqb name_eqb_spec). exact I3.
    - apply Forall_forall. intros [k v] I. rewrite Forall_forall in I4. clear -I C I4.
      revert I I4. generalize (p_targets i) as l. intros l. induction l as [|[k2 v2] l IH]; cbn [aset In].
      + intros [I|[]]. injection I as <- <-. auto.
      + destruct (name_eqb (orig t) k2) eqn:EE; cbn [In].
        * intros [I|I] H; [injection I as <- <-; auto|apply H; right; exact I].
        * intros [I|I] H; [apply H; left; exact I|apply IH; [exact I|intros y Iy; apply H; right; exact Iy]]. }
  destruct W as (W1 & W2 & _). split; [exact W1|]. split; [exact W2|]. split.
  { intros x. rewrite FD, (same_object_unshared m x n s) by auto. reflexivity. }
  intros q l u. destruct (X q l u) as (A1 & A2 & A3 & A4 & A5 & A6 & A7 & A8).
  cbn [andb negb] in A4, A7, A8. fold src in A1, A4, A7, A8. fold P in A1, A4, A7, A8. fold off in A4, A7, A8.
  split; [exact A1|]. split; [exact A2|]. split; [exact A3|]. split; [exact A4|]. split; [exact A5|]. split; [exact A6|].
  destruct (path_eqb q P && (l =? off) && name_eqb u (orig t)).
  - destruct A7 as [B1 B2]; auto.
  - destruct A8 as [B1 B2]; auto.
Qed.

(** What EnsureEntryInFuncForSymbol does to a function without an entry. *)
Lemma ensure_step base n st m :
  smap_ok m -> unshared m -> sm_find m n = None ->
  exists m' s', 
    (let! '(m2, ok) := TraverseInlineStack base n st (u64 (0 + 1)) (AddSymbol [] n m) in Ok (m2, ok))
      = Ok (m', match st with [] => false | _ => true end) /\
    smap_ok m' /\ unshared m' /\
    (forall x, sm_find m' x = if name_eqb x n then Some s' else sm_find m x) /\
    forall q l u,
      has_node s' q = (match q with [] => true | _ => false end || match st with [] => false | _ => is_prefix q (stack_path base false (rev st)) end) /\
      total_at s' q = (if match st with [] => false | _ => is_prefix q (stack_path base false (rev st)) end then 1 else 0) /\
      head_at s' q = 0 /\ has_pos s' q l = false /\ count_at s' q l = 0 /\ ninst_at s' q l = 0 /\
      has_target s' q l u = false /\ target_at s' q l u = 0.
Proof.
  intros OK UN F.
  assert (NI : ~ In n (akeys (sm_names m))).
  { intros I. apply (sm_find_keys m n OK) in I. congruence. }
  assert (AS : AddSymbol [] n m = SMap (sm_names m ++ [(n, length (sm_heap m))]) (sm_heap m ++ [sym0])).
  { unfold AddSymbol. rewrite (proj2 (aget_None_iff name_eqb name_eqb_spec n (sm_names m)) NI). cbn [fold_left].
    rewrite aset_fresh by auto. reflexivity. }
  set (m1 := AddSymbol [] n m) in *.
  destruct OK as (O1 & O2 & O3).
  assert (OK1 : smap_ok m1).
  { rewrite AS. split; [|split]; cbn [sm_names sm_heap].
    - unfold akeys. rewrite map_app. cbn [map fst]. apply NoDup_rev_snoc; auto.
    - apply Forall_app. split; auto. constructor; auto. unfold sym0. constructor; try (unfold is_u64; lia).
      + split; constructor.
      + constructor.
      + intros k c [].
    - rewrite app_length. cbn [length]. apply Forall_app. split.
      + eapply Forall_impl; [|exact O3]. cbv beta. intros; lia.
      + constructor; [cbn [snd]; lia|constructor]. }
  assert (UN1 : unshared m1).
  { rewrite AS. unfold unshared. cbn [sm_names]. rewrite map_app. cbn [map snd]. apply NoDup_rev_snoc; auto.
    intros I. apply in_map_iff in I. destruct I as ([x k] & E & I). cbn [snd] in E. subst k.
    rewrite Forall_forall in O3. specialize (O3 _ I). cbn [snd] in O3. lia. }
  assert (FN : forall x, sm_find m1 x = if name_eqb x n then Some sym0 else sm_find m x).
  { intros x. rewrite AS. unfold sm_find. cbn [sm_names sm_heap]. 
    assert (AG : aget name_eqb x (sm_names m ++ [(n, length (sm_heap m))]) =
      match aget name_eqb x (sm_names m) with Some i => Some i | None => if name_eqb x n then Some (length (sm_heap m)) else None end).
    { clear. induction (sm_names m) as [|[k v] l IH]; [reflexivity|]. cbn [app aget]. destruct (name_eqb x k); auto. }
    rewrite AG. clear AG. destruct (name_eqb_spec x n) as [QQ|NE].
    - rewrite QQ. rewrite (proj2 (aget_None_iff name_eqb name_eqb_spec n (sm_names m)) NI).
      rewrite nth_error_app2 by lia. rewrite Nat.sub_diag. reflexivity.
    - destruct (aget name_eqb x (sm_names m)) as [i|] eqn:E; auto.
      apply (aget_In name_eqb name_eqb_spec) in E. rewrite Forall_forall in O3. specialize (O3 _ E). cbn [snd] in O3.
      rewrite nth_error_app1 by lia. reflexivity. }
  change (u64 (0 + 1)) with 1.
  assert (E0 : forall q l u, has_node sym0 q = (match q with [] => true | _ => false end) /\ total_at sym0 q = 0 /\ head_at sym0 q = 0 /\
     pos_at sym0 q l = None /\ has_target sym0 q l u = false).
  { intros q l u. unfold has_node, total_at, head_at, has_target, pos_at. destruct q; cbn; auto 6. }
  destruct st as [|leaf rest].
  - cbn [TraverseInlineStack obind]. exists m1, sym0. split; [reflexivity|]. split; [exact OK1|]. split; [exact UN1|]. split; [exact FN|].
    intros q l u. destruct (E0 q l u) as (A1 & A2 & A3 & A4 & A5).
    unfold has_pos, count_at, ninst_at, target_at. rewrite A1, A2, A3, A4, A5, orb_false_r. repeat (split; [reflexivity|]). reflexivity.
  - unfold TraverseInlineStack. set (st := leaf :: rest) in *.
    assert (F1 : sm_find m1 n = Some sym0). { rewrite FN. destruct (name_eqb_spec n n); congruence. }
    destruct (sm_update_spec n (on_stack_node base false 1 (fun s => s) (rev st)) m1 sym0 F1) as (m' & E & _ & FD).
    rewrite E. cbn [obind]. exists m', (on_stack_node base false 1 (fun s => s) (rev st) sym0). split; [reflexivity|].
    destruct (update_ok _ _ _ _ OK1 UN1 (fun s => osn_ok base false 1 0 (fun p => p) false (rev st) (fun i H => H) s) E) as (W1 & W2 & _).
    split; [exact W1|]. split; [exact W2|]. split.
    { intros x. rewrite FD, (same_object_unshared m1 x n sym0) by auto. rewrite FN. destruct (name_eqb x n); auto. }
    intros q l u.
    assert (NE : rev st <> []). { intros Q. apply (f_equal (@length sinfo)) in Q. rewrite rev_length in Q. discriminate. }
    destruct (osn_obs base false 1 0 (fun p => p) false (rev st) NE sym0 q) as (A1 & A2 & A3 & A4).
    cbn [andb] in *. destruct (E0 q l u) as (B1 & B2 & B3 & B4 & B5).
    specialize (A4 l). unfold has_pos, count_at, ninst_at, has_target, target_at. rewrite A1, A2, A3, A4, B1, B2, B3, B4. split; [reflexivity|].
    split; [destruct (is_prefix _ _); reflexivity|]. auto 10.
Qed.

Section Loop.
  Variable base : Z -> Z.
  Variable orig : name -> name.
  Variable symtab : list (Z * (name * Z)).
  Variable stack_of : Z -> list sinfo.
  Notation convert := (convert_loop base orig symtab (fun _ => []) stack_of 0).
  Notation in_fn := (in_fn symtab).
  Notation home := (home symtab).
  Notation about := (about base orig symtab stack_of).
  Notation bogus := (bogus base symtab stack_of).
  Notation hinted := (hinted symtab).
  Notation placed := (placed base stack_of).
  Notation under := (under base stack_of).

  (** The profile of function [n] after the hints [hs]. *)
  Definition shows (n : name) (hs : list hint) (s : symbol) : Prop :=
    forall q l u,
      has_node s q = (match q with [] => true | _ => false end || existsb (fun h => in_fn n h && under (h_address h) q) hs) /\
      total_at s q = bogus n hs q /\ head_at s q = 0 /\
      has_pos s q l = existsb (fun h => in_fn n h && placed (h_address h) q l) hs /\
      count_at s q l = 0 /\ ninst_at s q l = 0 /\
      has_target s q l u = existsb (about n q l u) (ranked [] hs) /\
      target_at s q l u = last_delta (about n q l u) (ranked [] hs).

  Record inv (hs : list hint) (idx : list (Z * Z)) (m : smap) : Prop := Inv {
    i_ok : smap_ok m;
    i_un : unshared m;
    i_idx : forall a, home a <> None ->
      match aget Z.eqb a idx with Some i => i | None => 0 end = zlen (filter (fun e => h_address e =? a) hs) mod 256;
    i_dom : forall n, match sm_find m n with Some s => hinted n hs = true /\ shows n hs s | None => hinted n hs = false end }.

  Lemma ranked_snoc hs : forall e h,
    ranked e (hs ++ [h]) = ranked e hs ++ [(h, zlen (filter (fun x => h_address x =? h_address h) (e ++ hs)))].
  Proof.
    induction hs as [|g hs IH]; intros e h; cbn [ranked app].
    - rewrite app_nil_r. reflexivity.
    - rewrite IH, <- app_assoc. reflexivity.
  Qed.
  Lemma last_snoc P rs r : last_delta P (rs ++ [r]) = if P r then h_delta (fst r) mod 2 ^ 64 else last_delta P rs.
  Proof. unfold last_delta. rewrite rev_app_distr. cbn [rev app find]. destruct (P r); reflexivity. Qed.
  Lemma exists_snoc {A} (P : A -> bool) l x : existsb P (l ++ [x]) = existsb P l || P x.
  Proof. rewrite existsb_app. cbn [existsb]. rewrite orb_false_r. reflexivity. Qed.
  Lemma find_snoc {A} (P : A -> bool) l x : find P (l ++ [x]) = match find P l with Some y => Some y | None => if P x then Some x else None end.
  Proof. induction l as [|y l IH]; cbn [app find]; [reflexivity|]. destruct (P y); auto. Qed.
  Lemma find_exists {A} (P : A -> bool) l : match find P l with Some _ => existsb P l = true | None => existsb P l = false end.
  Proof. induction l as [|y l IH]; cbn [find existsb]; [reflexivity|]. destruct (P y); auto. Qed.

  (** A hint that does not concern function [n]. *)
  Lemma shows_other n hs h s : in_fn n h = false -> hinted n (hs ++ [h]) = hinted n hs /\ (shows n hs s -> shows n (hs ++ [h]) s).
  Proof.
    intros NF. split.
    - unfold PrefetchSpec.hinted. rewrite exists_snoc, NF, orb_false_r. reflexivity.
    - intros S q l u. destruct (S q l u) as (A1 & A2 & A3 & A4 & A5 & A6 & A7 & A8).
      rewrite ranked_snoc, !exists_snoc, last_snoc.
      assert (NA : forall k, about n q l u (h, k) = false). { intros k. unfold PrefetchSpec.about. cbn [fst]. rewrite NF. reflexivity. }
      rewrite !NA, NF. cbn [andb].
      rewrite !orb_false_r. split; [exact A1|]. split.
      { rewrite A2. unfold PrefetchSpec.bogus, first_hint. rewrite find_snoc, NF. destruct (find _ hs); reflexivity. }
      auto 10.
  Qed.

  Lemma decimal_print k : 0 <= k < 256 -> print_dec k = decimal k.
  Proof.
    intros H. unfold decimal, print_dec.
    assert (D : forall d, 0 <= d < 10 -> digit_char d = 48 + d).
    { intros d Hd. unfold digit_char. destruct (Z.ltb_spec d 10); lia. }
    change 64%nat with (S (S (S 61))).
    cbn [print_base]. 
    destruct (Z.ltb_spec k 10); [rewrite D by lia; reflexivity|].
    assert (H1 : 0 <= k mod 10 < 10) by (apply Z.mod_pos_bound; lia).
    assert (H2 : k = 10 * (k / 10) + k mod 10) by (apply Z.div_mod; lia).
    assert (H3 : k / 10 = 10 * (k / 10 / 10) + (k / 10) mod 10) by (apply Z.div_mod; lia).
    assert (H4 : 0 <= (k / 10) mod 10 < 10) by (apply Z.mod_pos_bound; lia).
    assert (H5 : k / 100 = k / 10 / 10) by (rewrite Z.div_div by lia; reflexivity).
    rewrite H5. rewrite (D (k mod 10)), (D ((k / 10) mod 10)) by lia.
    destruct (Z.ltb_spec (k / 10) 10), (Z.ltb_spec k 100); try lia.
    - rewrite D by lia. reflexivity.
    - destruct (Z.ltb_spec (k / 10 / 10) 10); try lia. rewrite D by lia. reflexivity.
  Qed.

  Lemma convert_inv hs2 : forall hs1 idx m, inv hs1 idx m ->
    exists m' idx', convert hs2 idx m = Ok m' /\ inv (hs1 ++ hs2) idx' m'.
  Proof.
    induction hs2 as [|h hs2 IH]; intros hs1 idx m V.
    { exists m, idx. rewrite app_nil_r. split; auto. }
    assert (REST : forall idx1 m1, inv (hs1 ++ [h]) idx1 m1 ->
      exists m' idx', convert hs2 idx1 m1 = Ok m' /\ inv (hs1 ++ h :: hs2) idx' m').
    { intros idx1 m1 V1. destruct (IH _ _ _ V1) as (m' & idx' & E & W). rewrite <- app_assoc in W. exists m', idx'. auto. }
    clear IH. cbn [convert_loop]. destruct V as [OK UN IX DM].
    assert (HOME : home (h_address h) = match GetSymbolInfoByAddr symtab (h_address h) with Some (n, _, _) => Some n | None => None end) by reflexivity.
    destruct (GetSymbolInfoByAddr symtab (h_address h)) as [[[n lo] hi]|] eqn:G.
    2: { apply REST. constructor; auto.
      - intros a HA. rewrite IX by auto. rewrite filter_app. cbn [filter].
        destruct (Z.eqb_spec (h_address h) a) as [<- |]; [congruence|]. rewrite app_nil_r. reflexivity.
      - intros x. specialize (DM x). assert (NF : in_fn x h = false). { unfold PrefetchSpec.in_fn. rewrite HOME. reflexivity. }
        destruct (sm_find m x) as [s|]; destruct (shows_other x hs1 h sym0 NF) as (-> & _); auto.
        destruct DM; split; auto. apply shows_other; auto. }
    assert (INF : forall x, in_fn x h = name_eqb x n). { intros x. unfold PrefetchSpec.in_fn. rewrite HOME. reflexivity. }
    assert (INN : in_fn n h = true). { rewrite INF. destruct (name_eqb_spec n n); congruence. }
    assert (HA : home (h_address h) <> None). { congruence. }
    set (i := match aget Z.eqb (h_address h) idx with Some i => i | None => 0 end).
    assert (EI : i = zlen (filter (fun e => h_address e =? h_address h) hs1) mod 256) by (apply IX; auto).
    assert (IX' : forall a, home a <> None ->
      match aget Z.eqb a (aset Z.eqb (h_address h) ((i + 1) mod 256) idx) with Some i => i | None => 0 end =
      zlen (filter (fun e => h_address e =? a) (hs1 ++ [h])) mod 256).
    { intros a Ha. rewrite (aget_aset Z.eqb Z.eqb_spec). rewrite filter_app. cbn [filter].
      destruct (Z.eqb_spec a (h_address h)) as [-> | NE].
      - rewrite Z.eqb_refl. unfold zlen in *. rewrite app_length. cbn [length]. rewrite EI, Zplus_mod_idemp_l. f_equal. lia.
      - destruct (Z.eqb_spec (h_address h) a); [congruence|]. rewrite app_nil_r. apply IX. exact Ha. }
    clearbody i.
    assert (ENS : exists m1 ok s1, EnsureEntryInFuncForSymbol base (fun _ => []) stack_of 0 n (h_address h) m = Ok (m1, ok) /\
      smap_ok m1 /\ unshared m1 /\
      (forall x, sm_find m1 x = if name_eqb x n then Some s1 else sm_find m x) /\
      (ok = false -> stack_of (h_address h) = []) /\
      (forall q l u,
        has_node s1 q || under (h_address h) q =
          (match q with [] => true | _ => false end || existsb (fun h => in_fn n h && under (h_address h) q) (hs1 ++ [h])) /\
        total_at s1 q = bogus n (hs1 ++ [h]) q /\ head_at s1 q = 0 /\
        has_pos s1 q l = existsb (fun h => in_fn n h && placed (h_address h) q l) hs1 /\
        count_at s1 q l = 0 /\ ninst_at s1 q l = 0 /\
        has_target s1 q l u = existsb (about n q l u) (ranked [] hs1) /\
        target_at s1 q l u = last_delta (about n q l u) (ranked [] hs1))).
    { unfold EnsureEntryInFuncForSymbol. specialize (DM n). destruct (sm_find m n) as [s|] eqn:F.
      - destruct DM as [HH SH]. exists m, true, s. split; [reflexivity|]. split; [exact OK|]. split; [exact UN|]. split.
        { intros x. destruct (name_eqb_spec x n) as [-> |]; auto. }
        split; [discriminate|]. intros q l u. destruct (SH q l u) as (A1 & A2 & A3 & A4 & A5 & A6 & A7 & A8).
        split. { rewrite A1, exists_snoc, INN, <- orb_assoc. reflexivity. }
        split. { rewrite A2. unfold PrefetchSpec.bogus, first_hint. rewrite find_snoc.
          unfold PrefetchSpec.hinted in HH. pose proof (find_exists (in_fn n) hs1) as FE. destruct (find (in_fn n) hs1); congruence. }
        auto 10.
      - destruct (ensure_step base n (stack_of (h_address h)) m OK UN F) as (m1 & s1 & E & W1 & W2 & FD & X).
        assert (NONE : existsb (in_fn n) hs1 = false) by exact DM.
        assert (NOFN : forall g, In g hs1 -> in_fn n g = false).
        { intros g I. destruct (in_fn n g) eqn:EG; auto. rewrite <- NONE. symmetry. apply existsb_exists. eauto. }
        assert (NOEX : forall P, existsb (fun g => in_fn n g && P g) hs1 = false).
        { intros P. clear -NOFN. induction hs1 as [|g hs1 IH]; [reflexivity|]. cbn [existsb]. rewrite NOFN by (left; auto). cbn [andb orb].
          apply IH. intros; apply NOFN; right; auto. }
        assert (NORK : forall q l u r, In r (ranked [] hs1) -> about n q l u r = false).
        { intros q l u r I. assert (IG : In (fst r) hs1).
          { clear -I. revert I. generalize (@nil hint) as e. induction hs1 as [|g hs1 IH]; intros e I; [destruct I|]. cbn [ranked In] in I.
            destruct I as [<- |I]; [left; reflexivity|right; eapply IH; eauto]. }
          unfold PrefetchSpec.about. rewrite NOFN by exact IG. reflexivity. }
        exists m1, (match stack_of (h_address h) with [] => false | _ => true end), s1.
        split. { revert E. destruct (TraverseInlineStack _ _ _ _ _) as [[m2 ok]| |]; cbn [obind]; auto. }
        split; [exact W1|]. split; [exact W2|]. split; [exact FD|].
        split. { destruct (stack_of (h_address h)); [reflexivity|discriminate]. }
        intros q l u. destruct (X q l u) as (A1 & A2 & A3 & A4 & A5 & A6 & A7 & A8).
        assert (UU : match stack_of (h_address h) with [] => false | _ => is_prefix q (stack_path base false (rev (stack_of (h_address h)))) end
          = under (h_address h) q). { unfold PrefetchSpec.under. destruct (stack_of (h_address h)); reflexivity. }
        rewrite UU in A1, A2. clear UU.
        split. { rewrite A1, exists_snoc, INN, NOEX. cbn [andb orb]. rewrite <- orb_assoc, orb_diag. reflexivity. }
        split. { rewrite A2. unfold PrefetchSpec.bogus, first_hint. rewrite find_snoc, INN.
          pose proof (find_exists (in_fn n) hs1) as FE. destruct (find (in_fn n) hs1); [congruence|]. reflexivity. }
        rewrite A3, A4, A5, A6, A7, A8, NOEX. repeat (split; [reflexivity|]). split.
        + symmetry. apply not_true_is_false. intros EX. apply existsb_exists in EX. destruct EX as (r & I & B). rewrite NORK in B by auto. discriminate.
        + unfold last_delta. destruct (find _ _) eqn:FF; [|reflexivity]. apply find_some in FF. destruct FF as [I B].
          rewrite <- in_rev in I. rewrite NORK in B by auto. discriminate. }
    destruct ENS as (m1 & ok & s1 & E1 & OK1 & UN1 & F1 & OKF & X1). rewrite E1. cbn [obind].
    assert (Fn : sm_find m1 n = Some s1). { rewrite F1. destruct (name_eqb_spec n n); congruence. }
    assert (OTHER : forall x, name_eqb x n = false ->
      match sm_find m1 x with Some s => hinted x (hs1 ++ [h]) = true /\ shows x (hs1 ++ [h]) s | None => hinted x (hs1 ++ [h]) = false end).
    { intros x NE. rewrite F1, NE. specialize (DM x). assert (NF : in_fn x h = false) by (rewrite INF; exact NE).
      destruct (sm_find m x) as [s|]; destruct (shows_other x hs1 h sym0 NF) as (-> & _); auto.
      destruct DM; split; auto. apply shows_other; auto. }
    assert (HN : hinted n (hs1 ++ [h]) = true). { unfold PrefetchSpec.hinted. rewrite exists_snoc, INN. apply orb_true_r. }
    destruct (stack_of (h_address h)) as [|leaf outer] eqn:ST.
    - (* no line information: nothing more happens *)
      assert (V : inv (hs1 ++ [h]) (aset Z.eqb (h_address h) ((i + 1) mod 256) idx) m1).
      { constructor; auto. intros x. destruct (name_eqb x n) eqn:NE; [|apply OTHER; exact NE].
        rewrite F1, NE. destruct (name_eqb_spec x n) as [QQ|]; [|discriminate]. rewrite QQ. clear NE QQ x. split; [exact HN|].
        intros q l u. destruct (X1 q l u) as (A1 & A2 & A3 & A4 & A5 & A6 & A7 & A8).
        assert (NU : under (h_address h) q = false). { unfold PrefetchSpec.under. rewrite ST. reflexivity. }
        assert (NP : placed (h_address h) q l = false). { unfold PrefetchSpec.placed. rewrite ST. reflexivity. }
        rewrite NU, orb_false_r in A1. split; [exact A1|]. split; [exact A2|]. split; [exact A3|]. split.
        { rewrite exists_snoc, NP, andb_false_r, orb_false_r. exact A4. }
        split; [exact A5|]. split; [exact A6|].
        rewrite ranked_snoc, exists_snoc, last_snoc.
        assert (NA : forall k, about n q l u (h, k) = false). { intros k. unfold PrefetchSpec.about. cbn [fst]. rewrite NP, andb_false_r. reflexivity. }
        rewrite !NA, orb_false_r. auto. }
      destruct ok; cbn [negb AddIndirectCallTarget obind]; apply REST; exact V.
    - assert (ok = true) as ->. { destruct ok; auto. discriminate OKF. reflexivity. }
      cbn [negb].
      destruct (hint_step base orig n leaf outer (prefetch_prefix ++ h_type h ++ underscore ++ print_dec i) (u64 (h_delta h)) m1 s1 OK1 UN1 Fn)
        as (m2 & s2 & E2 & OK2 & UN2 & F2 & X2).
      { unfold is_u64, u64, w64. pose proof (Z.mod_pos_bound (h_delta h) (2 ^ 64)). lia. }
      rewrite E2. cbn [obind]. apply REST. constructor; auto.
      intros x. rewrite F2. destruct (name_eqb x n) eqn:NE; [|apply OTHER; exact NE].
      destruct (name_eqb_spec x n) as [QQ|]; [|discriminate]. rewrite QQ. clear NE QQ x. split; [exact HN|].
      intros q l u. destruct (X1 q l u) as (A1 & A2 & A3 & A4 & A5 & A6 & A7 & A8).
      destruct (X2 q l u) as (B1 & B2 & B3 & B4 & B5 & B6 & B7 & B8).
      assert (UE : under (h_address h) q = is_prefix q (stack_path base false (rev (leaf :: outer)))). { unfold PrefetchSpec.under. rewrite ST. reflexivity. }
      assert (PE : placed (h_address h) q l = path_eqb q (stack_path base false (rev (leaf :: outer))) && (l =? si_offset base leaf)).
      { unfold PrefetchSpec.placed. rewrite ST. reflexivity. }
      assert (TG : orig (prefetch_prefix ++ h_type h ++ underscore ++ print_dec i) =
                   target orig (h, zlen (filter (fun x => h_address x =? h_address h) ([] ++ hs1)))).
      { cbn [app]. unfold target. cbn [fst snd]. f_equal. rewrite decimal_print, EI; [reflexivity|].
        rewrite EI. apply Z.mod_pos_bound. lia. }
      rewrite <- UE in B1. rewrite <- PE in B4, B7, B8. rewrite TG in B7, B8.
      split; [congruence|]. split; [congruence|]. split; [congruence|]. split.
      { rewrite B4, A4, exists_snoc, INN. reflexivity. }
      split; [congruence|]. split; [congruence|].
      rewrite ranked_snoc, exists_snoc, last_snoc.
      assert (NA : forall k, about n q l u (h, k) = placed (h_address h) q l && name_eqb u (target orig (h, k))).
      { intros k. unfold PrefetchSpec.about. cbn [fst]. rewrite INN. reflexivity. }
      rewrite !NA.
      split; [rewrite B7, A7; apply orb_comm|]. rewrite B8, A8. reflexivity.
  Qed.

  Lemma inv_nil : inv [] [] (SMap [] []).
  Proof.
    constructor.
    - split; [constructor|split; constructor].
    - constructor.
    - intros a _. reflexivity.
    - intros n. reflexivity.
  Qed.
  Lemma convert_spec hs : exists m idx, convert hs [] (SMap [] []) = Ok m /\ inv hs idx m.
  Proof. destruct (convert_inv hs [] [] _ inv_nil) as (m & idx & E & V). exists m, idx. auto. Qed.
End Loop.
