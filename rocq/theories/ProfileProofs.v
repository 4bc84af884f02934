From Verif Require Import Base ZMap SymbolModel SymbolSpec SymbolProofs AttribProofs SymbolProps
  ElideModel AddrModel AddrProps SampleModel SampleProofs ElideProofs ProfileModel ProfileSpec.
From Coq Require Import Permutation.

Lemma name_eqb_spec' : forall a b : name, reflect (a = b) (name_eqb a b).
Proof. exact name_eqb_spec. Qed.

Section Ranges.
  Variable stack_of : Z -> list sinfo.
  Variables (s e : Z).
  Hypothesis S0 : 0 <= s.
  Hypothesis E0 : e < 2 ^ 64.
  Let im := build_inst_map stack_of s e.

  Lemma im_lookup addr : 0 <= addr < 2 ^ 64 ->
    inst_info im addr = if (s <=? addr) && (addr <? e) then Some (stack_of addr) else None.
  Proof. intros. apply C17_instruction_lookup; auto. Qed.

  Lemma add_range_spec : forall fuel addr last c m a,
    0 <= addr < 2 ^ 64 -> (s <= addr < e -> e - addr < Z.of_nat fuel) -> (0 < fuel)%nat ->
    (forall k, 0 <= cnt Z.eqb m k < 2 ^ 64) ->
    cnt Z.eqb (add_range fuel im addr last c m) a
    = u64 (cnt Z.eqb m a + (if (s <=? addr) && (addr <=? a) && (a <=? last) && (a <? e) then c else 0))
    /\ (forall k, 0 <= cnt Z.eqb (add_range fuel im addr last c m) k < 2 ^ 64).
  Proof.
    induction fuel as [|f IH]; intros addr last c m a A F FP B; [lia|].
    cbn [add_range]. rewrite im_lookup by auto.
    assert (SM : forall x, 0 <= x < 2 ^ 64 -> u64 x = x) by (intros; apply Z.mod_small; auto).
    destruct ((s <=? addr) && (addr <? e)) eqn:Q.
    2: { split; [|auto]. assert ((s <=? addr) && (addr <=? a) && (a <=? last) && (a <? e) = false) as -> by lia.
         rewrite Z.add_0_r, SM; auto. }
    destruct (addr <=? last) eqn:L.
    2: { split; [|auto]. assert ((s <=? addr) && (addr <=? a) && (a <=? last) && (a <? e) = false) as -> by lia.
         rewrite Z.add_0_r, SM; auto. }
    assert (U : u64 (addr + 1) = addr + 1) by (apply Z.mod_small; change w64 with (2 ^ 64); lia).
    rewrite U.
    assert (B' : forall k, 0 <= cnt Z.eqb (madd Z.eqb m (addr, c)) k < 2 ^ 64).
    { intros k. rewrite (cnt_madd Z.eqb Z_eqb_reflect). cbn [fst snd].
      destruct (k =? addr); auto. change (2 ^ 64) with w64. apply Z.mod_pos_bound. unfold w64; lia. }
    destruct (Z.eq_dec (addr + 1) e) as [LastA|NL].
    - (* next address is outside the function *)
      assert (OUT : add_range f im (addr + 1) last c (madd Z.eqb m (addr, c)) = madd Z.eqb m (addr, c)).
      { destruct f; [reflexivity|]. cbn [add_range]. rewrite im_lookup by lia.
        assert ((s <=? addr + 1) && (addr + 1 <? e) = false) as -> by lia. reflexivity. }
      rewrite OUT. split; auto. rewrite (cnt_madd Z.eqb Z_eqb_reflect). cbn [fst snd].
      destruct (Z_eqb_reflect a addr) as [->|N].
      + assert ((s <=? addr) && (addr <=? addr) && (addr <=? last) && (addr <? e) = true) as -> by lia.
        reflexivity.
      + assert ((s <=? addr) && (addr <=? a) && (a <=? last) && (a <? e) = false) as -> by lia.
        rewrite Z.add_0_r, SM; auto.
    - destruct (IH (addr + 1) last c (madd Z.eqb m (addr, c)) a) as [R1 R2]; auto; try lia.
      split; auto. rewrite R1. rewrite (cnt_madd Z.eqb Z_eqb_reflect). cbn [fst snd].
      destruct (Z_eqb_reflect a addr) as [->|N].
      + assert ((s <=? addr) && (addr <=? addr) && (addr <=? last) && (addr <? e) = true) as -> by lia.
        assert ((s <=? addr + 1) && (addr + 1 <=? addr) && (addr <=? last) && (addr <? e) = false) as -> by lia.
        rewrite Z.add_0_r. unfold u64. apply Z.mod_mod. unfold w64; lia.
      + f_equal. f_equal.
        replace ((s <=? addr + 1) && (addr + 1 <=? a) && (a <=? last) && (a <? e))
          with ((s <=? addr) && (addr <=? a) && (a <=? last) && (a <? e)) by lia. reflexivity.
  Qed.

  Lemma add_range_keys : forall fuel addr last c m,
    0 <= addr < 2 ^ 64 ->
    (NoDup (akeys m) -> NoDup (akeys (add_range fuel im addr last c m))) /\
    (forall k, In k (akeys (add_range fuel im addr last c m)) -> In k (akeys m) \/ (s <= k < e)).
  Proof.
    induction fuel as [|f IH]; intros addr last c m A; cbn [add_range]; [auto|].
    rewrite im_lookup by auto.
    destruct ((s <=? addr) && (addr <? e)) eqn:Q; [|auto]. destruct (addr <=? last); [|auto].
    assert (U : u64 (addr + 1) = addr + 1) by (apply Z.mod_small; change w64 with (2 ^ 64); lia).
    rewrite U. destruct (IH (addr + 1) last c (madd Z.eqb m (addr, c)) ltac:(lia)) as [H1 H2].
    split.
    - intros N. apply H1. apply (NoDup_akeys_aset Z.eqb Z_eqb_reflect). auto.
    - intros k I. apply H2 in I. destruct I as [I|I]; auto.
      unfold madd in I. apply (In_akeys_aset Z.eqb Z_eqb_reflect) in I. cbn [fst] in I.
      destruct I as [->|I]; auto. right. lia.
  Qed.

  Lemma range_counts_spec rs : Forall (fun e => 0 <= fst (fst e) < 2 ^ 64) rs ->
    (forall a, cnt Z.eqb (range_counts im rs) a = if (s <=? a) && (a <? e) then u64 (covering s rs a) else 0)
    /\ NoDup (akeys (range_counts im rs)) /\ (forall k, In k (akeys (range_counts im rs)) -> s <= k < e).
  Proof.
    intros F. unfold range_counts.
    assert (LEN : forall addr, s <= addr < e -> e - addr < Z.of_nat (S (length (snd im)))).
    { intros addr A. unfold im, build_inst_map. assert (e <=? s = false) as -> by lia.
      cbn [snd]. rewrite map_length, seq_length. lia. }
    set (fuel := S (length (snd im))) in *.
    assert (G : forall rs m, Forall (fun e => 0 <= fst (fst e) < 2 ^ 64) rs ->
      (forall k, 0 <= cnt Z.eqb m k < 2 ^ 64) -> NoDup (akeys m) -> (forall k, In k (akeys m) -> s <= k < e) ->
      let r := fold_left (fun m e => add_range fuel im (fst (fst e)) (snd (fst e)) (snd e) m) rs m in
      (forall a, cnt Z.eqb r a = if (s <=? a) && (a <? e) then u64 (cnt Z.eqb m a + covering s rs a) else cnt Z.eqb m a)
      /\ NoDup (akeys r) /\ (forall k, In k (akeys r) -> s <= k < e)).
    { clear rs F. induction rs as [|[[b l] c] rs IH]; intros m F B N K; cbn [fold_left].
      - cbn. split; [|auto]. intros a. rewrite Z.add_0_r.
        destruct ((s <=? a) && (a <? e)); auto. symmetry. apply Z.mod_small. apply B.
      - inversion F as [|? ? Fb Fr]; subst. cbn [fst snd] in *.
        assert (R : forall a, cnt Z.eqb (add_range fuel im b l c m) a
          = u64 (cnt Z.eqb m a + (if (s <=? b) && (b <=? a) && (a <=? l) && (a <? e) then c else 0))).
        { intros a. apply add_range_spec; auto. unfold fuel; lia. }
        assert (R2 : forall k, 0 <= cnt Z.eqb (add_range fuel im b l c m) k < 2 ^ 64).
        { apply (add_range_spec fuel b l c m 0); auto. unfold fuel; lia. }
        destruct (add_range_keys fuel b l c m Fb) as [K1 K2].
        destruct (IH (add_range fuel im b l c m)) as (A1 & A2 & A3); auto.
        { intros k I. apply K2 in I. destruct I; auto. }
        cbn zeta in *. split; auto. intros a. rewrite A1, R.
        cbn [covering fold_right fst snd]. fold (covering s rs a).
        destruct ((s <=? a) && (a <? e)) eqn:Q.
        + assert (a <? e = true) as -> by lia. rewrite andb_true_r.
          unfold u64. rewrite Zplus_mod_idemp_l. f_equal. lia.
        + assert ((s <=? b) && (b <=? a) && (a <=? l) && (a <? e) = false) as ->.
          { destruct (s <=? b) eqn:Q1, (b <=? a) eqn:Q2, (a <? e) eqn:Q3; cbn; try rewrite andb_false_r; auto. lia. }
          rewrite Z.add_0_r. apply Z.mod_small. apply B. }
    destruct (G rs [] F) as (A1 & A2 & A3).
    - intros k. cbn. lia.
    - constructor.
    - intros k [].
    - split; auto.
  Qed.
End Ranges.

(** *** Folding a commutative operation over a map, or over all addresses *)
Section MFold.
  Variable op : Z -> Z -> Z.
  Hypothesis op_comm : forall x y, op x y = op y x.
  Hypothesis op_assoc : forall x y z, op x (op y z) = op (op x y) z.
  Hypothesis op_0 : forall x, 0 <= x -> op 0 x = x.
  Hypothesis op_nn : forall x y, 0 <= x -> 0 <= y -> 0 <= op x y.

  Definition mfold {A} (f : A -> Z) (l : list A) : Z := fold_right (fun x acc => op (f x) acc) 0 l.

  Lemma mfold_cons {A} (f : A -> Z) x l : mfold f (x :: l) = op (f x) (mfold f l).
  Proof. reflexivity. Qed.
  Lemma mfold_nn {A} (f : A -> Z) l : (forall x, 0 <= f x) -> 0 <= mfold f l.
  Proof. intros F. induction l; cbn; [lia|]. auto. Qed.
  Lemma mfold_ext {A} (f g : A -> Z) l : (forall x, In x l -> f x = g x) -> mfold f l = mfold g l.
  Proof. induction l as [|x l IH]; cbn; auto. intros E. rewrite E by auto. f_equal. auto. Qed.
  Lemma mfold_zero {A} (f : A -> Z) l : (forall x, In x l -> f x = 0) -> mfold f l = 0.
  Proof.
    induction l as [|x l IH]; [reflexivity|]. intros E. rewrite mfold_cons, (E x) by (left; auto).
    rewrite IH by (intros; apply E; right; auto). apply op_0. lia.
  Qed.
  Lemma mfold_upd (h : Z -> Z) a v l : NoDup l -> In a l -> h a = 0 -> 0 <= v -> (forall x, 0 <= h x) ->
    mfold (fun x => if x =? a then v else h x) l = op v (mfold h l).
  Proof.
    intros N I H0 V H. induction l as [|x l IH]; [destruct I|].
    inversion N; subst. rewrite !mfold_cons.
    destruct (Z_eqb_reflect x a) as [->|NE].
    - rewrite H0. rewrite (op_0 (mfold h l)) by (apply mfold_nn; auto). f_equal.
      apply mfold_ext. intros y Iy. destruct (Z_eqb_reflect y a); auto. subst. contradiction.
    - destruct I as [->|I]; [congruence|]. rewrite IH by auto.
      rewrite !op_assoc. f_equal. apply op_comm.
  Qed.

  Lemma mfold_map (g : Z -> Z -> Z) (As : list Z) (l : list (Z * Z)) :
    NoDup As -> NoDup (akeys l) -> (forall a, g a 0 = 0) -> (forall a c, 0 <= g a c) ->
    (forall a c, ~ In a As -> g a c = 0) ->
    mfold (fun e => g (fst e) (snd e)) l = mfold (fun a => g a (cnt Z.eqb l a)) As.
  Proof.
    intros NA NK G0 GN GO. induction l as [|[a c] l IH].
    - cbn [mfold fold_right]. symmetry. apply mfold_zero. intros. cbn. apply G0.
    - change (akeys ((a, c) :: l)) with (a :: akeys l) in NK. inversion NK as [|? ? NI NK']; subst.
      rewrite mfold_cons. rewrite IH by auto. cbn [fst snd].
      assert (Ca : cnt Z.eqb l a = 0).
      { unfold cnt. rewrite (proj2 (aget_None_iff Z.eqb Z_eqb_reflect a l)); auto. }
      assert (C : forall x, cnt Z.eqb ((a, c) :: l) x = if x =? a then c else cnt Z.eqb l x).
      { intros x. unfold cnt. cbn [aget]. destruct (x =? a); reflexivity. }
      transitivity (mfold (fun x => if x =? a then g a c else g x (cnt Z.eqb l x)) As).
      2: { apply mfold_ext. intros x _. rewrite C. destruct (Z_eqb_reflect x a); subst; auto. }
      destruct (in_dec Z.eq_dec a As) as [I|NI2].
      + symmetry. apply (mfold_upd (fun x => g x (cnt Z.eqb l x))); auto. rewrite Ca. auto.
      + rewrite (GO a c) by auto. rewrite op_0 by (apply mfold_nn; auto).
        apply mfold_ext. intros x Ix. destruct (Z_eqb_reflect x a); auto. subst. contradiction.
  Qed.
End MFold.

Lemma maxfold_nn {A} (f : A -> Z) l : 0 <= mfold Z.max f l.
Proof. destruct l as [|x l]; [cbn; lia|]. rewrite mfold_cons. induction l as [|y l IH]; [cbn; lia|].
  rewrite mfold_cons. lia. Qed.

(** *** Adding a list of source counts *)
Section AddAll.
  Variable base : Z -> Z.

  Definition st_in (q : path) (st : list sinfo) : bool :=
    match st with [] => false | _ => is_prefix q (stack_path base true (rev st)) end.
  Definition st_loc (q : path) (l : Z) (st : list sinfo) : bool :=
    match st with
    | [] => false
    | leaf :: rest => negb (si_invalid leaf) && path_eqb q (stack_path base true (rev (leaf :: rest)))
                      && (l =? si_offset base leaf)
    end.

  Fixpoint add_all (n : name) (L : list (list sinfo * (Z * Z))) (m : smap) : outcome smap :=
    match L with
    | [] => Ok m
    | (st, (c, ni)) :: r => let! m := AddSourceCount base true n st c ni m in add_all n r m
    end.

  Lemma touch_insts_all n sts m : touch_insts base n sts m = add_all n (map (fun st => (st, (0, 1))) sts) m.
  Proof.
    revert m. induction sts as [|st sts IH]; intros m; cbn [touch_insts add_all map]; auto.
    assert (match st with [] => Ok m | _ => AddSourceCount base true n st 0 1 m end
            = AddSourceCount base true n st 0 1 m) as -> by (destruct st; reflexivity).
    destruct (AddSourceCount base true n st 0 1 m); cbn [obind]; auto.
  Qed.

  Definition entry_of (dup : sinfo -> Z) (im : Z * list (list sinfo)) (e : Z * Z) : list sinfo * (Z * Z) :=
    match inst_info im (fst e) with
    | Some (leaf :: r) => (leaf :: r, (u64 (snd e * dup leaf), 0))
    | _ => ([], (0, 0))
    end.
  Lemma add_counts_all dup n im l m :
    add_counts_loop base dup n im l m = add_all n (map (entry_of dup im) l) m.
  Proof.
    revert m. induction l as [|[a c] l IH]; intros m; cbn [add_counts_loop add_all map]; auto.
    unfold entry_of at 1. cbn [fst snd].
    destruct (inst_info im a) as [[|leaf r]|]; cbn [AddSourceCount obind]; auto.
    destruct (sm_update _ _ _); cbn [obind]; auto.
  Qed.

  Lemma AddSourceCount_names conv n st c ni m m' : AddSourceCount base conv n st c ni m = Ok m' ->
    sm_names m' = sm_names m.
  Proof.
    unfold AddSourceCount, sm_update. destruct st; [congruence|].
    destruct (aget _ _ _); [|discriminate]. destruct (nth_error _ _); [|discriminate].
    intros E. injection E as <-. reflexivity.
  Qed.

  Lemma same_object_names m m' a b : sm_names m' = sm_names m -> same_object m' a b = same_object m a b.
  Proof. unfold same_object. intros ->. reflexivity. Qed.

  Lemma same_object_refl m n s : sm_find m n = Some s -> same_object m n n = true.
  Proof.
    unfold sm_find, same_object. destruct (aget _ _ _); [|discriminate]. intros _. apply Nat.eqb_refl.
  Qed.

  Definition q_total (q : path) (e : list sinfo * (Z * Z)) : Z := if st_in q (fst e) then fst (snd e) else 0.
  Definition q_count (q : path) (l : Z) (e : list sinfo * (Z * Z)) : Z :=
    if st_loc q l (fst e) then fst (snd e) else 0.
  Definition q_ninst (q : path) (l : Z) (e : list sinfo * (Z * Z)) : Z :=
    if st_loc q l (fst e) then snd (snd e) else 0.

  Lemma add_all_spec n L : forall m s,
    sm_find m n = Some s -> sym_ok s -> Forall (fun e => is_u64 (fst (snd e))) L ->
    exists m' s', add_all n L m = Ok m' /\ sm_names m' = sm_names m /\
      (forall n', sm_find m' n' = if same_object m n' n then Some s' else sm_find m n') /\ sym_ok s' /\
      forall q l t,
        has_node s' q = has_node s q || existsb (fun e => st_in q (fst e)) L /\
        total_at s' q = (total_at s q + mfold Z.add (q_total q) L) mod 2 ^ 64 /\
        head_at s' q = head_at s q /\
        has_pos s' q l = has_pos s q l || existsb (fun e => st_loc q l (fst e)) L /\
        count_at s' q l = Z.max (count_at s q l) (mfold Z.max (q_count q l) L) /\
        ninst_at s' q l = (ninst_at s q l + mfold Z.add (q_ninst q l) L) mod 2 ^ 64 /\
        has_target s' q l t = has_target s q l t /\ target_at s' q l t = target_at s q l t.
  Proof.
    induction L as [|[st [c ni]] L IH]; intros m s Hf Hs F.
    - exists m, s. cbn [add_all]. repeat split; auto.
      + intros n'. unfold sm_find, same_object in *. destruct (aget name_eqb n' (sm_names m)) eqn:E1; auto.
        destruct (aget name_eqb n (sm_names m)); [|discriminate].
        destruct (Nat.eqb_spec n0 n1); auto. subst. auto.
      + cbn. rewrite orb_false_r; auto.
      + cbn [mfold fold_right]. rewrite Z.add_0_r, Z.mod_small; auto.
        unfold total_at. destruct (node_at s q) eqn:E; [|lia]. apply sym_ok_total. eauto using node_at_ok.
      + cbn. rewrite orb_false_r; auto.
      + cbn [mfold fold_right]. assert (0 <= count_at s q l); [|lia].
        unfold count_at, pos_at. destruct (node_at s q) eqn:E; [|lia].
        destruct (aget Z.eqb l (s_pos s0)) eqn:E2; [|lia].
        pose proof (node_at_ok _ _ _ Hs E) as K. inversion K as [? ? ? ? ? ? ? P ? ?]; subst. destruct P as [_ P].
        cbn [s_pos] in E2. apply (aget_In Z.eqb Z_eqb_reflect) in E2. rewrite Forall_forall in P. apply P in E2. apply E2.
      + cbn [mfold fold_right]. rewrite Z.add_0_r, Z.mod_small; auto.
        unfold ninst_at, pos_at. destruct (node_at s q) eqn:E; [|lia].
        destruct (aget Z.eqb l (s_pos s0)) eqn:E2; [|lia].
        pose proof (node_at_ok _ _ _ Hs E) as K. inversion K as [? ? ? ? ? ? ? P ? ?]; subst. destruct P as [_ P].
        cbn [s_pos] in E2. apply (aget_In Z.eqb Z_eqb_reflect) in E2. rewrite Forall_forall in P. apply P in E2. apply E2.
    - cbn [add_all]. pose proof (Forall_inv F) as Fc. pose proof (Forall_inv_tail F) as FL. cbn [fst snd] in Fc.
      destruct st as [|leaf rest].
      + cbn [AddSourceCount obind]. destruct (IH m s Hf Hs FL) as (m' & s' & R1 & R2 & R3 & R4 & R5).
        exists m', s'. repeat split; auto; destruct (R5 q l t) as (A1 & A2 & A3 & A4 & A5 & A6 & A7 & A8); auto.
        rewrite A5. rewrite mfold_cons. unfold q_count at 2. cbn [fst snd st_loc].
        pose proof (maxfold_nn (q_count q l) L). lia.
      + destruct (C08_add_source_count base true n leaf rest c ni m s Hf Hs Fc) as (m1 & s1 & E1 & E2 & E3 & E4).
        rewrite E1. cbn [obind].
        assert (N1 : sm_names m1 = sm_names m) by (eapply AddSourceCount_names; eauto).
        assert (Hf1 : sm_find m1 n = Some s1).
        { rewrite E2, (same_object_refl m n s Hf). reflexivity. }
        destruct (IH m1 s1 Hf1 E3 FL) as (m' & s' & R1 & R2 & R3 & R4 & R5).
        exists m', s'. split; [exact R1|]. split; [congruence|]. split.
        { intros n'. rewrite R3, (same_object_names _ _ _ _ N1), E2. destruct (same_object m n' n); auto. }
        split; [exact R4|]. intros q l t. destruct (R5 q l t) as (A1 & A2 & A3 & A4 & A5 & A6 & A7 & A8).
        destruct (E4 q l t) as (B1 & B2 & B3 & B4 & B5 & B6 & B7 & B8). cbn zeta in *.
        rewrite A1, A2, A3, A4, A5, A6, A7, A8, B1, B2, B3, B4, B5, B6, B7, B8. rewrite !mfold_cons.
        cbn [existsb]. unfold q_total at 2, q_count at 2, q_ninst at 2. cbn [fst snd andb].
        change (st_in q (leaf :: rest)) with (is_prefix q (stack_path base true (rev (leaf :: rest)))).
        change (st_loc q l (leaf :: rest)) with
          (negb (si_invalid leaf) && path_eqb q (stack_path base true (rev (leaf :: rest)))
                      && (l =? si_offset base leaf)).
        repeat split; auto.
        * rewrite orb_assoc. reflexivity.
        * destruct (is_prefix q _); [rewrite Zplus_mod_idemp_l|]; f_equal; lia.
        * rewrite orb_assoc. reflexivity.
        * pose proof (maxfold_nn (q_count q l) L). destruct (_ && _ && _); unfold is_u64 in *; lia.
        * destruct (_ && _ && _); [rewrite Zplus_mod_idemp_l|]; f_equal; lia.
  Qed.
End AddAll.

(** *** Branches *)
Lemma existsb_ext' {A} (f g : A -> bool) l : (forall x, f x = g x) -> existsb f l = existsb g l.
Proof. intros E. induction l; cbn; auto. rewrite E, IHl. auto. Qed.
Lemma fold_left_ext' {A B} (f g : B -> A -> B) l : (forall b x, f b x = g b x) ->
  forall b, fold_left f l b = fold_left g l b.
Proof. intros E. induction l; intros b; cbn; auto. rewrite E. auto. Qed.

Section Branches.
  Variable base : Z -> Z.
  Variable orig : name -> name.
  Variable symtab : list (Z * (name * Z)).

  Definition all_ok (m : smap) : Prop := forall x sx, sm_find m x = Some sx -> sym_ok sx.
  Definition known (m : smap) (x : name) : bool := match sm_find m x with Some _ => true | None => false end.

  Definition br_calls (im : Z * list (list sinfo)) (m : smap) (x : name) (e : (Z * Z) * Z) : bool :=
    match inst_info im (fst (fst e)), GetSymbolNameByStartAddr symtab (snd (fst e)) with
    | Some _, Some callee => same_object m x callee
    | _, _ => false
    end.
  Definition br_hit (im : Z * list (list sinfo)) (m : smap) (q : path) (l : Z) (t : name) (e : (Z * Z) * Z) : bool :=
    match inst_info im (fst (fst e)), GetSymbolNameByStartAddr symtab (snd (fst e)) with
    | Some st, Some callee => known m callee && st_loc base q l st && name_eqb t (orig callee)
    | _, _ => false
    end.

  Lemma entry_count_spec callee c m s : sm_find m callee = Some s -> all_ok m -> is_u64 c ->
    exists m', AddSymbolEntryCount callee c 0 m = Ok m' /\ sm_names m' = sm_names m /\ all_ok m' /\
      forall x sx, sm_find m x = Some sx -> exists sx', sm_find m' x = Some sx' /\
        (forall q l t, total_at sx' q = total_at sx q /\ has_node sx' q = has_node sx q /\
           has_pos sx' q l = has_pos sx q l /\
           count_at sx' q l = count_at sx q l /\ ninst_at sx' q l = ninst_at sx q l /\
           has_target sx' q l t = has_target sx q l t /\ target_at sx' q l t = target_at sx q l t /\
           head_at sx' q = if same_object m x callee && path_eqb q [] then (head_at sx q + c) mod 2 ^ 64 else head_at sx q).
  Proof.
    intros Hf OK C. unfold AddSymbolEntryCount.
    set (f := fun s => match s with Sym h t ts p cs => Sym (add64 h c) (add64 t 0) ts p cs end).
    assert (FO : forall s, sym_ok s -> sym_ok (f s)).
    { intros s0 K. destruct K. cbn. constructor; auto; unfold add64, u64, is_u64; change w64 with (2 ^ 64);
        apply Z.mod_pos_bound; lia. }
    destruct (sm_update_spec callee f m s Hf) as (m' & U & SO & FI). exists m'. split; [exact U|].
    assert (NM : sm_names m' = sm_names m).
    { unfold sm_update in U. destruct (aget _ _ _); [|discriminate]. destruct (nth_error _ _); [|discriminate].
      injection U as <-. reflexivity. }
    split; [exact NM|]. split.
    { intros x sx H. rewrite FI in H. destruct (same_object m x callee); eauto.
      injection H as <-. apply FO. eauto. }
    assert (SAME : forall x sx, same_object m x callee = true -> sm_find m x = Some sx -> sx = s).
    { intros x sx O H. unfold same_object, sm_find in *. destruct (aget name_eqb x (sm_names m)); [|discriminate].
      destruct (aget name_eqb callee (sm_names m)); [|discriminate]. apply Nat.eqb_eq in O. subst. congruence. }
    intros x sx H. rewrite FI. destruct (same_object m x callee) eqn:O.
    - rewrite (SAME x sx O H) in *. exists (f s). split; auto. pose proof (OK _ _ Hf) as K. clear - K C.
      destruct s as [h t ts p cs]. inversion K; subst. intros [|k q] l tn; cbn.
      + repeat split; auto. unfold add64, u64. change w64 with (2 ^ 64). rewrite Z.add_0_r. apply Z.mod_small; auto.
      + repeat split; auto.
    - exists sx. split; auto. intros. repeat split; auto.
  Qed.

  Lemma target_names conv n st t c m m' : AddIndirectCallTarget base orig conv n st t c m = Ok m' ->
    sm_names m' = sm_names m.
  Proof.
    unfold AddIndirectCallTarget, sm_update. destruct st; [congruence|].
    destruct (aget _ _ _); [|discriminate]. destruct (nth_error _ _); [|discriminate].
    intros E. injection E as <-. reflexivity.
  Qed.

  Definition last_hit (h : (Z * Z) * Z -> bool) (l : list ((Z * Z) * Z)) (v : Z) : Z :=
    fold_left (fun v e => if h e then snd e else v) l v.

  Lemma same_find m x y s : same_object m x y = true -> sm_find m x = Some s -> sm_find m y = Some s.
  Proof.
    unfold same_object, sm_find. intros O H. destruct (aget name_eqb x (sm_names m)); [|discriminate].
    destruct (aget name_eqb y (sm_names m)); [|discriminate]. apply Nat.eqb_eq in O. subst. auto.
  Qed.

  Lemma one_branch im n m s f t c : sm_find m n = Some s -> all_ok m -> is_u64 c ->
    exists m1, (match inst_info im f, GetSymbolNameByStartAddr symtab t with
                  | Some st, Some callee =>
                      match sm_find m callee with
                      | Some _ =>
                          let! m := AddSymbolEntryCount callee c 0 m in
                          AddIndirectCallTarget base orig true n st callee c m
                      | None => Ok m
                      end
                  | _, _ => Ok m
                  end) = Ok m1 /\ sm_names m1 = sm_names m /\ all_ok m1 /\
      forall x sx, sm_find m x = Some sx -> exists sx', sm_find m1 x = Some sx' /\
        forall q l tn, total_at sx' q = total_at sx q /\
           count_at sx' q l = count_at sx q l /\ ninst_at sx' q l = ninst_at sx q l /\
           head_at sx' q = (if br_calls im m x ((f, t), c) && path_eqb q [] then (head_at sx q + c) mod 2 ^ 64 else head_at sx q) /\
           has_target sx' q l tn = (if same_object m x n && br_hit im m q l tn ((f, t), c) then true else has_target sx q l tn) /\
           target_at sx' q l tn = (if same_object m x n && br_hit im m q l tn ((f, t), c) then c else target_at sx q l tn).
  Proof.
    intros Hf OK C. unfold br_calls, br_hit. cbn [fst snd].
    assert (TRIV : forall b : name -> bool, exists m1, Ok m = Ok m1 /\ sm_names m1 = sm_names m /\ all_ok m1 /\
      forall x sx, sm_find m x = Some sx -> exists sx', sm_find m1 x = Some sx' /\
        forall q l tn, total_at sx' q = total_at sx q /\
           count_at sx' q l = count_at sx q l /\ ninst_at sx' q l = ninst_at sx q l /\
           head_at sx' q = head_at sx q /\ has_target sx' q l tn = has_target sx q l tn /\
           target_at sx' q l tn = target_at sx q l tn).
    { intros _. exists m. repeat split; auto. intros x sx H. exists sx. repeat split; auto. }
    destruct (inst_info im f) as [st|]; [|destruct (TRIV (fun _ => true)) as (m1 & A & B & D & E); exists m1; split; auto; split; auto; split; auto;
      intros x sx H; destruct (E x sx H) as (sx' & E1 & E2); exists sx'; split; auto; intros q l tn; rewrite ?andb_false_r; apply E2].
    destruct (GetSymbolNameByStartAddr symtab t) as [callee|];
      [|destruct (TRIV (fun _ => true)) as (m1 & A & B & D & E); exists m1; split; auto; split; auto; split; auto;
      intros x sx H; destruct (E x sx H) as (sx' & E1 & E2); exists sx'; split; auto; intros q l tn; rewrite ?andb_false_r; apply E2].
    unfold known. destruct (sm_find m callee) as [sc|] eqn:FC.
    2: { exists m. repeat split; auto. intros x sx H. exists sx. split; auto. intros q l tn.
         destruct (same_object m x callee) eqn:O.
         - rewrite (same_find _ _ _ _ O H) in FC. discriminate.
         - rewrite !andb_false_r. cbn. auto 10. }
    destruct (entry_count_spec callee c m sc FC OK C) as (m1 & E1 & N1 & O1 & X1). rewrite E1. cbn [obind].
    destruct (X1 n s Hf) as (s1 & F1 & _).
    destruct st as [|leaf rest].
    - cbn [AddIndirectCallTarget]. exists m1. repeat split; auto. intros x sx H.
      destruct (X1 x sx H) as (sx' & H1 & H2). exists sx'. split; auto. intros q l tn.
      destruct (H2 q l tn) as (A1 & A2 & A3 & A4 & A5 & A6 & A7 & A8). cbn. rewrite !andb_false_r. repeat split; auto.
    - destruct (C08_add_indirect_call_target base orig true n leaf rest callee c m1 s1 F1 (O1 _ _ F1) C)
        as (m2 & s2 & E2 & F2 & O2 & X2). rewrite E2. exists m2. split; auto.
      assert (N2 : sm_names m2 = sm_names m) by (rewrite <- N1; eapply target_names; eauto).
      split; auto. split.
      { intros x sx H. rewrite F2 in H. destruct (same_object m1 x n); eauto. congruence. }
      intros x sx H. destruct (X1 x sx H) as (sx1 & H1 & H2).
      rewrite F2, (same_object_names m m1 x n) by auto. destruct (same_object m x n) eqn:O.
      + exists s2. split; auto. intros q l tn.
        assert (sx1 = s1).
        { assert (same_object m1 x n = true) as O' by (rewrite (same_object_names m m1); auto).
          pose proof (same_find _ _ _ _ O' H1). congruence. } subst sx1.
        destruct (H2 q l tn) as (A1 & A2 & A3 & A4 & A5 & A6 & A7 & A8).
        destruct (X2 q l tn) as (B1 & B2 & B3 & B4 & B5 & B6 & B7 & B8). cbn [andb] in *.
        rewrite B2, B3, B5, B6, A1, A4, A5, A8. repeat split; auto.
        * change (st_loc base q l (leaf :: rest)) with
          (negb (si_invalid leaf) && path_eqb q (stack_path base true (rev (leaf :: rest)))
                      && (l =? si_offset base leaf)).
          destruct (_ && _ && _ && _) eqn:HH; [apply B7; auto|]. destruct B8 as [B8 _]; auto. congruence.
        * change (st_loc base q l (leaf :: rest)) with
          (negb (si_invalid leaf) && path_eqb q (stack_path base true (rev (leaf :: rest)))
                      && (l =? si_offset base leaf)).
          destruct (_ && _ && _ && _) eqn:HH; [apply B7; auto|]. destruct B8 as [_ B8]; auto. congruence.
      + exists sx1. split; auto. intros q l tn. destruct (H2 q l tn) as (A1 & A2 & A3 & A4 & A5 & A6 & A7 & A8).
        cbn [andb]. repeat split; auto.
  Qed.

  Lemma add_branches_spec im n L : forall m s,
    sm_find m n = Some s -> all_ok m -> Forall (fun e => is_u64 (snd e)) L ->
    exists m', add_branches base orig symtab n im L m = Ok m' /\ sm_names m' = sm_names m /\ all_ok m' /\
      forall x sx, sm_find m x = Some sx -> exists sx', sm_find m' x = Some sx' /\
        forall q l t,
          total_at sx' q = total_at sx q /\ count_at sx' q l = count_at sx q l /\ ninst_at sx' q l = ninst_at sx q l /\
          head_at sx' q = (if path_eqb q [] then (head_at sx q + mfold Z.add (fun e => if br_calls im m x e then snd e else 0) L) mod 2 ^ 64
                           else head_at sx q) /\
          has_target sx' q l t = has_target sx q l t || (same_object m x n && existsb (br_hit im m q l t) L) /\
          target_at sx' q l t = if same_object m x n then last_hit (br_hit im m q l t) L (target_at sx q l t) else target_at sx q l t.
  Proof.
    induction L as [|[[f tt] c] L IH]; intros m s Hf OK FL.
    - exists m. cbn [add_branches]. repeat split; auto. intros x sx H. exists sx. split; auto. intros q l t.
      cbn. rewrite andb_false_r, orb_false_r, Z.add_0_r. repeat split; auto.
      + destruct (path_eqb q []); auto. symmetry. apply Z.mod_small.
        unfold head_at. destruct (node_at sx q) eqn:E; [|lia].
        pose proof (node_at_ok _ _ _ (OK _ _ H) E) as K. inversion K; subst. auto.
      + destruct (same_object m x n); auto.
    - cbn [add_branches]. pose proof (Forall_inv FL) as Fc. pose proof (Forall_inv_tail FL) as FT. cbn [fst snd] in Fc.
      destruct (one_branch im n m s f tt c Hf OK Fc) as (m1 & E1 & N1 & O1 & X1). rewrite E1. cbn [obind].
      destruct (X1 n s Hf) as (s1 & F1 & _).
      destruct (IH m1 s1 F1 O1 FT) as (m' & E2 & N2 & O2 & X2). exists m'. split; auto. split; [congruence|]. split; auto.
      assert (KN : forall x, known m1 x = known m x).
      { intros x. unfold known. destruct (sm_find m x) eqn:E.
        - destruct (X1 _ _ E) as (? & -> & _). auto.
        - destruct (sm_find m1 x) eqn:E3; auto. exfalso.
          unfold sm_find in E, E3. rewrite N1 in E3. destruct (aget name_eqb x (sm_names m)); [|discriminate].
          assert (LEN : length (sm_heap m1) = length (sm_heap m)).
          { clear - E1. revert E1. destruct (inst_info im f); [|congruence]. destruct (GetSymbolNameByStartAddr _ _); [|congruence].
            destruct (sm_find m n0); [|congruence]. unfold AddSymbolEntryCount.
            assert (UL : forall n g (m m' : smap), sm_update n g m = Ok m' -> length (sm_heap m') = length (sm_heap m)).
            { intros n' g a b U. unfold sm_update in U. destruct (aget _ _ _); [|discriminate].
              destruct (nth_error _ _); [|discriminate]. injection U as <-. cbn [sm_heap]. apply set_nth_length. }
            destruct (sm_update _ _ m) eqn:U; cbn [obind]; try discriminate. apply UL in U. rewrite <- U.
            unfold AddIndirectCallTarget. destruct l; [congruence|]. apply UL. }
          apply nth_error_None in E. assert (nth_error (sm_heap m1) n0 <> None) by congruence.
          apply nth_error_Some in H. lia. }
      intros x sx H. destruct (X1 x sx H) as (sx1 & F3 & P1). destruct (X2 x sx1 F3) as (sx' & F4 & P2).
      exists sx'. split; auto. intros q l t.
      destruct (P1 q l t) as (A1 & A2 & A3 & A4 & A5 & A6). destruct (P2 q l t) as (B1 & B2 & B3 & B4 & B5 & B6).
      assert (HIT : forall e, br_hit im m1 q l t e = br_hit im m q l t e).
      { intros e. unfold br_hit. destruct (inst_info im (fst (fst e))); auto. destruct (GetSymbolNameByStartAddr symtab (snd (fst e))); auto.
        rewrite KN. auto. }
      assert (CAL : forall e, br_calls im m1 x e = br_calls im m x e).
      { intros e. unfold br_calls. destruct (inst_info im (fst (fst e))); auto. destruct (GetSymbolNameByStartAddr symtab (snd (fst e))); auto.
        apply same_object_names; auto. }
      rewrite (same_object_names m m1 x n) in * by auto.
      rewrite B1, B2, B3, A1, A2, A3. repeat split; auto.
      + rewrite B4, A4. rewrite mfold_cons. cbn [snd].
        rewrite (mfold_ext Z.add _ (fun e => if br_calls im m x e then snd e else 0)) by (intros; rewrite CAL; auto).
        destruct (path_eqb q []); rewrite ?andb_true_r, ?andb_false_r; auto.
        destruct (br_calls im m x (f, tt, c)); [rewrite Zplus_mod_idemp_l|]; f_equal; lia.
      + rewrite B5, A5. cbn [existsb]. rewrite (existsb_ext' _ (br_hit im m q l t)) by auto.
        destruct (same_object m x n); cbn [andb]; auto.
        destruct (br_hit im m q l t (f, tt, c)); cbn [orb]; auto. rewrite orb_true_r. auto.
      + rewrite B6, A6. destruct (same_object m x n); cbn [andb]; auto.
        unfold last_hit. cbn [fold_left snd]. apply fold_left_ext'. intros; rewrite HIT; auto.
  Qed.
End Branches.

(** *** Aggregation *)
Section AggProofs.
  Variable symtab : list (Z * (name * Z)).
  Variable segs : list (Z * Z).

  Lemma profile_with v f ps n :
    profile_of (with_profile_maps symtab v f ps) n
    = if in_function symtab n v
      then match GetSymbolInfoByAddr symtab v with
           | Some (_, s, e) => f (match aget name_eqb n ps with Some m => m | None => new_pmaps s e end)
           | None => profile_of ps n
           end
      else profile_of ps n.
  Proof.
    unfold with_profile_maps, in_function, profile_of.
    destruct (GetSymbolInfoByAddr symtab v) as [[[n' s] e]|]; auto.
    rewrite (aget_aset name_eqb name_eqb_spec). destruct (name_eqb_spec n n'); auto. subst. auto.
  Qed.

  Lemma wsum_aset {K} (eqb : K -> K -> bool) (sp : forall a b, reflect (a = b) (eqb a b)) P m k v :
    wsum P (aset eqb k v m) = wsum P m + (if P k then v - cnt eqb m k else 0).
  Proof.
    unfold cnt. induction m as [|[k' c] m IH].
    - cbn. destruct (P k); lia.
    - cbn [aset aget]. destruct (sp k k') as [->|N]; cbn [wsum fold_right fst snd].
      + fold (wsum P m). destruct (P k'); lia.
      + fold (wsum P m). fold (wsum P (aset eqb k v m)). rewrite IH. lia.
  Qed.
  Lemma wsum_madd {K} (eqb : K -> K -> bool) (sp : forall a b, reflect (a = b) (eqb a b)) P m e :
    u64 (wsum P (madd eqb m e)) = u64 (wsum P m + (if P (fst e) then snd e else 0)).
  Proof.
    unfold madd. rewrite (wsum_aset eqb sp). fold (cnt eqb m (fst e)). destruct (P (fst e)); auto.
    replace (wsum P m + (u64 (cnt eqb m (fst e) + snd e) - cnt eqb m (fst e)))
      with (u64 (cnt eqb m (fst e) + snd e) + (wsum P m - cnt eqb m (fst e))) by lia.
    unfold u64 at 1 2. rewrite Zplus_mod_idemp_l. unfold u64. f_equal. lia.
  Qed.
  Lemma u64_add_l a b c : u64 a = u64 b -> u64 (a + c) = u64 (b + c).
  Proof. intros E. unfold u64 in *. rewrite <- Zplus_mod_idemp_l, E, Zplus_mod_idemp_l. reflexivity. Qed.

  Definition origin_ok (ps : profs) : Prop := forall n p, aget name_eqb n ps = Some p ->
    exists v, GetSymbolInfoByAddr symtab v = Some (n, pm_start p, pm_end p).

  Lemma origin_with v f ps : (forall m, pm_start (f m) = pm_start m /\ pm_end (f m) = pm_end m) ->
    origin_ok ps -> origin_ok (with_profile_maps symtab v f ps).
  Proof.
    intros F O n p. unfold with_profile_maps. destruct (GetSymbolInfoByAddr symtab v) as [[[n' s] e]|] eqn:G; [|apply O].
    rewrite (aget_aset name_eqb name_eqb_spec). destruct (name_eqb_spec n n') as [->|N]; [|apply O].
    intros E. injection E as <-. destruct (aget name_eqb n' ps) eqn:A.
    - destruct (O _ _ A) as [w W]. exists w. rewrite (proj1 (F _)), (proj2 (F _)). auto.
    - exists v. rewrite (proj1 (F _)), (proj2 (F _)). cbn. auto.
  Qed.

  (** the samples whose (first) address is in [n], with static addresses *)
  Definition P1 (n : name) (P : Z -> bool) (a : Z) : bool :=
    in_function symtab n (static_addr segs a) && P (static_addr segs a).
  Definition P2 (n : name) (P : Z * Z -> bool) (k : Z * Z) : bool :=
    in_function symtab n (static_addr segs (fst k)) && P (static_addr segs (fst k), static_addr segs (snd k)).

  Lemma agg_addr_spec l : forall ps ps', agg_addr symtab segs l ps = Ok ps' -> origin_ok ps ->
    origin_ok ps' /\ forall n,
      (forall P, u64 (wsum P (pm_addr (profile_of ps' n))) = u64 (wsum P (pm_addr (profile_of ps n)) + wsum (P1 n P) l)) /\
      pm_range (profile_of ps' n) = pm_range (profile_of ps n) /\ pm_branch (profile_of ps' n) = pm_branch (profile_of ps n).
  Proof.
    induction l as [|[a c] l IH]; intros ps ps' H O; cbn [agg_addr] in H.
    - injection H as <-. split; auto. intros n. repeat split; auto. intros P. cbn. rewrite Z.add_0_r. auto.
    - destruct (get_static_vaddr segs a) as [v| |] eqn:V; cbn [obind] in H; try discriminate.
      apply IH in H; [|apply origin_with; auto]. destruct H as [O' H]. split; auto. intros n.
      destruct (H n) as (A & B & C). rewrite B, C, !profile_with.
      assert (SA : static_addr segs a = v) by (unfold static_addr; rewrite V; auto).
      split.
      + intros P. rewrite A, profile_with. cbn [wsum fold_right fst snd]. fold (wsum (P1 n P) l).
        unfold P1 at 2. rewrite SA. unfold in_function, profile_of.
        destruct (GetSymbolInfoByAddr symtab v) as [[[n' s] e]|]; [|cbn [andb]; f_equal; lia].
        destruct (name_eqb_spec n n') as [->|N]; cbn [andb]; [|f_equal; lia].
        cbn [pm_addr]. rewrite Z.add_assoc. apply u64_add_l.
        rewrite (wsum_madd Z.eqb Z_eqb_reflect). cbn [fst snd]. destruct (aget name_eqb n' ps); auto.
      + unfold in_function, profile_of. destruct (GetSymbolInfoByAddr symtab v) as [[[n' s] e]|]; auto.
        destruct (name_eqb_spec n n'); auto. cbn. destruct (aget name_eqb n ps); auto.
  Qed.

  Lemma agg_ts_spec l : forall ps ps', agg_ts symtab segs l ps = Ok ps' -> origin_ok ps ->
    origin_ok ps' /\ forall n,
      pm_addr (profile_of ps' n) = pm_addr (profile_of ps n) /\
      pm_range (profile_of ps' n) = pm_range (profile_of ps n) /\ pm_branch (profile_of ps' n) = pm_branch (profile_of ps n).
  Proof.
    induction l as [|[a c] l IH]; intros ps ps' H O; cbn [agg_ts] in H.
    - injection H as <-. split; auto.
    - destruct (get_static_vaddr segs a) as [v| |] eqn:V; cbn [obind] in H; try discriminate.
      apply IH in H; [|apply origin_with; auto]. destruct H as [O' H]. split; auto. intros n.
      destruct (H n) as (A & B & C). rewrite A, B, C, !profile_with.
      unfold in_function, profile_of. destruct (GetSymbolInfoByAddr symtab v) as [[[n' s] e]|]; auto.
      destruct (name_eqb_spec n n'); auto. cbn. destruct (aget name_eqb n ps); auto.
  Qed.

  Lemma agg_range_spec l : forall ps ps', agg_range symtab segs l ps = Ok ps' -> origin_ok ps ->
    origin_ok ps' /\ forall n,
      (forall P, u64 (wsum P (pm_range (profile_of ps' n))) = u64 (wsum P (pm_range (profile_of ps n)) + wsum (P2 n P) l)) /\
      pm_addr (profile_of ps' n) = pm_addr (profile_of ps n) /\ pm_branch (profile_of ps' n) = pm_branch (profile_of ps n).
  Proof.
    induction l as [|[[a b] c] l IH]; intros ps ps' H O; cbn [agg_range] in H.
    - injection H as <-. split; auto. intros n. repeat split; auto. intros P. cbn. rewrite Z.add_0_r. auto.
    - destruct (get_static_vaddr segs a) as [v| |] eqn:V; cbn [obind] in H; try discriminate.
      destruct (get_static_vaddr segs b) as [w| |] eqn:W; cbn [obind] in H; try discriminate.
      apply IH in H; [|apply origin_with; auto]. destruct H as [O' H]. split; auto. intros n.
      destruct (H n) as (A & B & C). rewrite B, C, !profile_with.
      assert (SA : static_addr segs a = v) by (unfold static_addr; rewrite V; auto).
      assert (SB : static_addr segs b = w) by (unfold static_addr; rewrite W; auto).
      split.
      + intros P. rewrite A, profile_with. cbn [wsum fold_right fst snd]. fold (wsum (P2 n P) l).
        unfold P2 at 2. cbn [fst snd]. rewrite SA, SB. unfold in_function, profile_of.
        destruct (GetSymbolInfoByAddr symtab v) as [[[n' s] e]|]; [|cbn [andb]; f_equal; lia].
        destruct (name_eqb_spec n n') as [->|N]; cbn [andb]; [|f_equal; lia].
        cbn [pm_range]. rewrite Z.add_assoc. apply u64_add_l.
        rewrite (wsum_madd pair_eqb pair_eqb_spec). cbn [fst snd]. destruct (aget name_eqb n' ps); auto.
      + unfold in_function, profile_of. destruct (GetSymbolInfoByAddr symtab v) as [[[n' s] e]|]; auto.
        destruct (name_eqb_spec n n'); auto. cbn. destruct (aget name_eqb n ps); auto.
  Qed.

  Lemma agg_branch_spec l : forall ps ps', agg_branch symtab segs l ps = Ok ps' -> origin_ok ps ->
    origin_ok ps' /\ forall n,
      (forall P, u64 (wsum P (pm_branch (profile_of ps' n))) = u64 (wsum P (pm_branch (profile_of ps n)) + wsum (P2 n P) l)) /\
      pm_addr (profile_of ps' n) = pm_addr (profile_of ps n) /\ pm_range (profile_of ps' n) = pm_range (profile_of ps n).
  Proof.
    induction l as [|[[a b] c] l IH]; intros ps ps' H O; cbn [agg_branch] in H.
    - injection H as <-. split; auto. intros n. repeat split; auto. intros P. cbn. rewrite Z.add_0_r. auto.
    - destruct (get_static_vaddr segs a) as [v| |] eqn:V; cbn [obind] in H; try discriminate.
      destruct (get_static_vaddr segs b) as [w| |] eqn:W; cbn [obind] in H; try discriminate.
      apply IH in H; [|apply origin_with; auto]. destruct H as [O' H]. split; auto. intros n.
      destruct (H n) as (A & B & C). rewrite B, C, !profile_with.
      assert (SA : static_addr segs a = v) by (unfold static_addr; rewrite V; auto).
      assert (SB : static_addr segs b = w) by (unfold static_addr; rewrite W; auto).
      split.
      + intros P. rewrite A, profile_with. cbn [wsum fold_right fst snd]. fold (wsum (P2 n P) l).
        unfold P2 at 2. cbn [fst snd]. rewrite SA, SB. unfold in_function, profile_of.
        destruct (GetSymbolInfoByAddr symtab v) as [[[n' s] e]|]; [|cbn [andb]; f_equal; lia].
        destruct (name_eqb_spec n n') as [->|N]; cbn [andb]; [|f_equal; lia].
        cbn [pm_branch]. rewrite Z.add_assoc. apply u64_add_l.
        rewrite (wsum_madd pair_eqb pair_eqb_spec). cbn [fst snd]. destruct (aget name_eqb n' ps); auto.
      + unfold in_function, profile_of. destruct (GetSymbolInfoByAddr symtab v) as [[[n' s] e]|]; auto.
        destruct (name_eqb_spec n n'); auto. cbn. destruct (aget name_eqb n ps); auto.
  Qed.

  Lemma agg_names_spec l : forall ps ps', agg_names symtab l ps = Ok ps' -> origin_ok ps ->
    origin_ok ps' /\ (forall n,
      pm_addr (profile_of ps' n) = pm_addr (profile_of ps n) /\
      pm_range (profile_of ps' n) = pm_range (profile_of ps n) /\ pm_branch (profile_of ps' n) = pm_branch (profile_of ps n)) /\
    (forall n a, In (n, a) l -> exists n' s e p, GetSymbolInfoByAddr symtab a = Some (n', s, e) /\ aget name_eqb n' ps' = Some p) /\
    (forall n p, aget name_eqb n ps = Some p -> exists p', aget name_eqb n ps' = Some p').
  Proof.
    induction l as [|[x a] l IH]; intros ps ps' H O; cbn [agg_names] in H.
    - injection H as <-. repeat split; auto. intros n a []. eauto.
    - destruct (GetSymbolInfoByAddr symtab a) as [[[n0 s0] e0]|] eqn:V; try discriminate.
      apply IH in H; [|apply origin_with; auto]. destruct H as (O' & H & H2 & H3). split; auto.
      assert (G : forall n, aget name_eqb n (with_profile_maps symtab a (fun m => m) ps)
               = if name_eqb n n0 then Some (match aget name_eqb n0 ps with Some m => m | None => new_pmaps s0 e0 end)
                 else aget name_eqb n ps).
      { intros n. unfold with_profile_maps. rewrite V. rewrite (aget_aset name_eqb name_eqb_spec).
        destruct (name_eqb_spec n n0); auto. }
      repeat split.
      + destruct (H n) as (A & B & C). rewrite A, profile_with. unfold in_function, profile_of. rewrite V.
        destruct (name_eqb_spec n n0); auto. destruct (aget name_eqb n ps); auto.
      + destruct (H n) as (A & B & C). rewrite B, profile_with. unfold in_function, profile_of. rewrite V.
        destruct (name_eqb_spec n n0); auto. destruct (aget name_eqb n ps); auto.
      + destruct (H n) as (A & B & C). rewrite C, profile_with. unfold in_function, profile_of. rewrite V.
        destruct (name_eqb_spec n n0); auto. destruct (aget name_eqb n ps); auto.
      + intros n b [E|I].
        * injection E as <- <-. specialize (G n0). destruct (name_eqb_spec n0 n0); [|congruence].
          destruct (H3 _ _ G) as [p' P']. exists n0, s0, e0, p'. auto.
        * eauto.
      + intros n p E. specialize (G n). destruct (name_eqb_spec n n0); eapply H3; [|rewrite G]; eauto.
  Qed.
End AggProofs.

(** *** All functions *)
Lemma sm_update_len n g (m m' : smap) : sm_update n g m = Ok m' -> length (sm_heap m') = length (sm_heap m).
Proof.
  intros U. unfold sm_update in U. destruct (aget _ _ _); [|discriminate].
  destruct (nth_error _ _); [|discriminate]. injection U as <-. cbn [sm_heap]. apply set_nth_length.
Qed.
Lemma add_all_len base n L : forall m m', add_all base n L m = Ok m' -> length (sm_heap m') = length (sm_heap m).
Proof.
  induction L as [|[st [c ni]] L IH]; intros m m' H; cbn [add_all] in H; [congruence|].
  destruct (AddSourceCount base true n st c ni m) eqn:E; cbn [obind] in H; try discriminate.
  apply IH in H. rewrite H. unfold AddSourceCount in E. destruct st; [congruence|]. eapply sm_update_len; eauto.
Qed.
Lemma add_branches_len base orig symtab n im L : forall m m', add_branches base orig symtab n im L m = Ok m' ->
  length (sm_heap m') = length (sm_heap m).
Proof.
  induction L as [|[[f t] c] L IH]; intros m m' H; cbn [add_branches] in H; [congruence|].
  destruct (inst_info im f); [|apply IH in H; auto].
  destruct (GetSymbolNameByStartAddr symtab t); [|apply IH in H; auto].
  destruct (sm_find m n0); [|apply IH in H; auto].
  destruct (AddSymbolEntryCount n0 c 0 m) eqn:E; cbn [obind] in H; try discriminate.
  destruct (AddIndirectCallTarget base orig true n l n0 c a) eqn:E2; cbn [obind] in H; try discriminate.
  apply IH in H. rewrite H. apply sm_update_len in E. rewrite <- E.
  unfold AddIndirectCallTarget in E2. destruct l; [congruence|]. eapply sm_update_len; eauto.
Qed.
Lemma process_len base orig symtab stack_of dup use_lbr n p m m' :
  ProcessPerFunctionProfile base orig symtab stack_of dup use_lbr n p m = Ok m' ->
  length (sm_heap m') = length (sm_heap m).
Proof.
  unfold ProcessPerFunctionProfile. rewrite touch_insts_all.
  destruct (add_all _ _ _ m) as [m1| |] eqn:E1; cbn [obind]; try discriminate. apply add_all_len in E1.
  destruct (AddSymbolTimestamp n (pm_ts p) m1) as [m2| |] eqn:E2; cbn [obind]; try discriminate. apply sm_update_len in E2.
  assert (G : forall cs, (let! m := add_counts_loop base dup n (build_inst_map stack_of (pm_start p) (pm_end p)) cs m2 in
     add_branches base orig symtab n (build_inst_map stack_of (pm_start p) (pm_end p)) (pm_branch p) m) = Ok m' ->
     length (sm_heap m') = length (sm_heap m)).
  { intros cs H. rewrite add_counts_all in H. destruct (add_all _ _ _ m2) as [m3| |] eqn:E3; cbn [obind] in H; try discriminate.
    apply add_all_len in E3. apply add_branches_len in H. congruence. }
  destruct use_lbr; [destruct (pm_range p)|]; eauto. intros H. injection H as <-. congruence.
Qed.
