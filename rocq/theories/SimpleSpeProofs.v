(** Lemmas for C67. *)
From Coq Require Import Permutation Sorted.
From Verif Require ChainAsmProofs.
From Verif Require Import Base SampleModel SampleSpec SampleProofs SampleProps ISort SimpleSpeModel SimpleSpeSpec.

(** ** The scan *)
Section Scan.
  Variables (bs : list Z) (nt : list (Z * Z)).
  Hypothesis bs_sorted : StronglySorted (fun a b => (a <=? b) = true) bs.
  Hypothesis bs_al : forall b, In b bs -> 0 <= b /\ b mod 4 = 0.
  Definition st (b : Z) : Z := match aget Z.eqb b nt with Some c => c | None => 0 end.
  Hypothesis st_nonneg : forall b, 0 <= st b.

  Definition gend (e s x : Z) : Prop :=
    (In x bs /\ s <= x < e /\ forall b, In b bs -> s <= b -> x <= b) \/
    ((forall b, In b bs -> s <= b -> e <= b) /\ x = e - 4).
  Definition gstart (e s0 w0 s w : Z) : Prop :=
    0 < w0 /\ s0 <= s < e /\
    ((s = s0 /\ w = w0) \/
     (s0 < s /\ w = st (s - 4) /\ In (s - 4) bs /\ s0 <= s - 4 /\
      forall b, In b bs -> s0 <= b <= s - 4 -> 0 < st b)).

  Lemma lower_bound_spec l s : StronglySorted (fun a b => (a <=? b) = true) l ->
    match lower_bound l s with
    | Some b => In b l /\ s <= b /\ forall b', In b' l -> s <= b' -> b <= b'
    | None => forall b, In b l -> b < s
    end.
  Proof.
    induction 1 as [|a l S IH F]; unfold lower_bound; cbn [find]; [intros b []|].
    destruct (Z.leb_spec s a).
    - split; [left; reflexivity|]. split; [lia|]. intros b' [->|I] _; [lia|].
      rewrite Forall_forall in F. specialize (F _ I). cbv beta in F. lia.
    - fold (lower_bound l s). destruct (lower_bound l s) as [b|].
      + destruct IH as [I [L M]]. split; [right; exact I|]. split; [exact L|].
        intros b' [->|I'] Lb; [lia|]. apply M; auto.
      + intros b [->|I]; [lia|]. apply IH; auto.
  Qed.

  Definition above (s : Z) : nat := length (filter (fun b => s <=? b) bs).

  Lemma above_lt s s' b : In b bs -> s <= b -> b < s' -> (above s' < above s)%nat.
  Proof.
    unfold above. clear. intros I L G. induction bs as [|a l IH]; [destruct I|].
    cbn [filter]. destruct I as [->|I].
    - destruct (Z.leb_spec s b); [|lia]. destruct (Z.leb_spec s' b); [lia|]. cbn [length].
      assert (length (filter (fun b0 => (s' <=? b0)%Z) l) <= length (filter (fun b0 => (s <=? b0)%Z) l))%nat; [|lia].
      clear IH. induction l as [|c l IH2]; cbn [filter length]; [lia|].
      destruct (Z.leb_spec s' c), (Z.leb_spec s c); cbn [length]; lia.
    - specialize (IH I). destruct (Z.leb_spec s' a), (Z.leb_spec s a); cbn [length]; lia.
  Qed.

  Lemma scan_spec e : e < w64 -> e mod 4 = 0 -> forall fuel s w, (above s < fuel)%nat ->
    0 <= s -> s mod 4 = 0 -> 0 <= w ->
    exists l, scan fuel bs nt e s w = Ok l /\ NoDup (map fst l) /\
      forall s' x v, In ((s', x), v) l <-> gstart e s w s' v /\ 0 < v /\ gend e s' x.
  Proof.
    intros He Ae. induction fuel as [|f IH]; intros s w Hf Hs As Hw; [lia|].
    cbn [scan]. destruct (Z.ltb_spec 0 w); cbn [andb].
    2:{ exists []. split; [reflexivity|]. split; [constructor|]. intros s' x v. split; [intros []|].
        intros [[G _] _]. lia. }
    destruct (Z.ltb_spec s e).
    2:{ exists []. split; [reflexivity|]. split; [constructor|]. intros s' x v. split; [intros []|].
        intros [[_ [G _]] _]. lia. }
    pose proof (lower_bound_spec bs s bs_sorted) as LB.
    assert (U : u64 (e - kArmInstructionSize) = e - 4).
    { unfold u64, kArmInstructionSize. apply Z.mod_small. Z.div_mod_to_equations. lia. }
    assert (SE : s <= e - 4) by (Z.div_mod_to_equations; lia).
    destruct (lower_bound bs s) as [b|] eqn:EL; [destruct (Z.ltb_spec b e) as [Lt|Ge]|]; cbv zeta.
    - destruct LB as [Ib [Lb Mb]]. destruct (Z.leb_spec s b); [|lia].
      assert (Ub : u64 (b + kArmInstructionSize) = b + 4).
      { unfold u64, kArmInstructionSize. apply Z.mod_small.
        destruct (bs_al _ Ib) as [A1 A2]. Z.div_mod_to_equations. lia. }
      destruct (bs_al _ Ib) as [A1 A2].
      rewrite Ub. fold (st b).
      destruct (IH (b + 4) (st b)) as [l [El [Nl Sl]]].
      { pose proof (above_lt s (b + 4) b Ib Lb ltac:(lia)). lia. }
      { lia. } { Z.div_mod_to_equations. lia. } { apply st_nonneg. }
      rewrite El. cbn [obind]. eexists. split; [reflexivity|]. split.
      + cbn [app map fst]. constructor; auto. intros I. apply in_map_iff in I.
        destruct I as [[[s' x] v] [E I]]. cbn [fst] in E. injection E as -> ->.
        apply Sl in I. destruct I as [[_ [G _]] _]. lia.
      + intros s' x v. cbn [app In]. rewrite Sl. split.
        * intros [E|[[G1 [G2 G3]] [G4 G5]]].
          -- injection E as <- <- <-. split; [|split; [lia|left; auto]].
             split; [lia|]. split; [lia|]. left. auto.
          -- split; [|auto]. split; [lia|]. split; [lia|]. right. split; [lia|].
             destruct G3 as [[-> ->]|[G3 [G6 [G7 [G8 G9]]]]].
             ++ replace (b + 4 - 4) with b by lia. split; [reflexivity|]. split; [auto|]. split; [lia|].
                intros b' I' R'. assert (b' = b) as -> by (specialize (Mb b' I'); lia). exact G1.
             ++ split; [auto|]. split; [auto|]. split; [lia|]. intros b' I' R'.
                destruct (Z.le_gt_cases (b + 4) b') as [K|K]; [apply G9; auto; lia|].
                specialize (Mb b' I' ltac:(lia)). destruct (bs_al _ I') as [B1 B2].
                assert (b' = b) as -> by (Z.div_mod_to_equations; lia). exact G1.
        * intros [[G1 [G2 G3]] [G4 G5]]. destruct G3 as [[-> ->]|[G3 [G6 [G7 [G8 G9]]]]].
          -- left. f_equal. f_equal. destruct G5 as [[X1 [X2 X3]]|[X1 X2]].
             ++ specialize (X3 b Ib Lb). specialize (Mb x X1 ltac:(lia)). lia.
             ++ specialize (X1 b Ib Lb). lia.
          -- right. split; [|split; auto]. assert (b <= s' - 4) by (apply Mb; auto).
             split; [apply G9; auto; lia|]. split; [lia|].
             destruct (Z.eq_dec s' (b + 4)) as [->|NE].
             ++ left. split; auto. rewrite G6. f_equal. lia.
             ++ right. split; [lia|]. split; [auto|]. split; [auto|]. split.
                { destruct (bs_al _ G7). Z.div_mod_to_equations. lia. }
                intros b' I' R'. apply G9; auto. lia.
    - destruct LB as [Ib [Lb Mb]]. rewrite U. destruct (Z.leb_spec s (e - 4)); [|lia].
      eexists. split; [reflexivity|]. split; [constructor; [intros []|constructor]|].
      intros s' x v. cbn [In]. split.
      + intros [E|[]]. injection E as <- <- <-. split; [|split; [lia|]].
        * split; [lia|]. split; [lia|]. left. auto.
        * right. split; [|reflexivity]. intros b' I' L'. specialize (Mb b' I' L'). lia.
      + intros [[G1 [G2 G3]] [G4 G5]]. left. destruct G3 as [[-> ->]|[G3 [G6 [G7 [G8 G9]]]]].
        * f_equal. f_equal. destruct G5 as [[X1 [X2 X3]]|[X1 X2]]; [|auto].
          specialize (Mb x X1 ltac:(lia)). lia.
        * specialize (Mb _ G7 G8). lia.
    - rewrite U. destruct (Z.leb_spec s (e - 4)); [|lia].
      eexists. split; [reflexivity|]. split; [constructor; [intros []|constructor]|].
      intros s' x v. cbn [In]. split.
      + intros [E|[]]. injection E as <- <- <-. split; [|split; [lia|]].
        * split; [lia|]. split; [lia|]. left. auto.
        * right. split; [|reflexivity]. intros b' I' L'. specialize (LB b' I'). lia.
      + intros [[G1 [G2 G3]] [G4 G5]]. left. destruct G3 as [[-> ->]|[G3 [G6 [G7 [G8 G9]]]]].
        * f_equal. f_equal. destruct G5 as [[X1 [X2 X3]]|[X1 X2]]; [|auto].
          specialize (LB x X1). lia.
        * specialize (LB _ G7). lia.
  Qed.

  Lemma above_le s : (above s <= length bs)%nat.
  Proof.
    unfold above. clear. induction bs as [|a l IH]; cbn [filter length]; [lia|].
    destruct (s <=? a); cbn [length]; lia.
  Qed.

  Variable inc : list (Z * Z).
  Definition wt (t : Z) : Z := match aget Z.eqb t inc with Some c => c | None => 0 end.
  Hypothesis wt_nonneg : forall t, 0 <= wt t.

  Definition limit (T : list Z) (t e : Z) : Prop :=
    In t T /\ ((t < e /\ In e T /\ forall t', In t' T -> t < t' -> e <= t') \/
               ((forall t', In t' T -> t' <= t) /\ e = t + 4096)).

  Lemma scan_targets_spec T : StronglySorted Z.lt T ->
    (forall t, In t T -> 0 <= t /\ t mod 4 = 0 /\ t + 4096 < w64) ->
    exists l, scan_targets bs nt inc T = Ok l /\ NoDup (map fst l) /\
      forall s x v, In ((s, x), v) l <->
        exists t e, limit T t e /\ gstart e t (wt t) s v /\ 0 < v /\ gend e s x.
  Proof.
    induction 1 as [|t T S IH F]; intros B.
    - exists []. split; [reflexivity|]. split; [constructor|]. intros s x v. split; [intros []|].
      intros [t [e [[[] _] _]]].
    - destruct IH as [l [El [Nl Sl]]]; [intros; apply B; right; auto|].
      cbn [scan_targets]. cbv zeta.
      set (e := match T with [] => u64 (t + kMaxRangeSize) | t' :: _ => t' end).
      destruct (B t (or_introl eq_refl)) as [B1 [B2 B3]].
      assert (E : limit (t :: T) t e /\ e < w64 /\ e mod 4 = 0 /\ (forall t', In t' T -> e <= t')).
      { unfold e. destruct T as [|t' T'].
        - assert (u64 (t + kMaxRangeSize) = t + 4096) as ->.
          { unfold u64, kMaxRangeSize. apply Z.mod_small. lia. }
          split; [|split; [lia|split; [Z.div_mod_to_equations; lia|intros ? []]]].
          split; [left; auto|]. right. split; [|reflexivity]. intros t' [->|[]]. lia.
        - destruct (B t' (or_intror (or_introl eq_refl))) as [C1 [C2 C3]].
          inversion F; subst. inversion S; subst.
          assert (forall t'', In t'' (t' :: T') -> t' <= t'').
          { intros t'' [->|I]; [lia|]. rewrite Forall_forall in *.
            match goal with H : forall x, In x T' -> t' < x |- _ => specialize (H _ I); lia end. }
          split; [|split; [lia|split; [auto|assumption]]].
          split; [left; auto|]. left. split; [auto|]. split; [right; left; auto|].
          intros t'' [<-|I] L; [lia|]. auto. }
      destruct E as [L [E1 [E2 E3]]]. rewrite Forall_forall in F.
      destruct (scan_spec e E1 E2 (2 * length bs + 3) t (wt t)) as [l1 [E4 [N4 S4]]]; auto.
      { pose proof (above_le t). lia. }
      fold (wt t). rewrite E4, El. cbn [obind]. eexists. split; [reflexivity|].
      assert (LE : forall t0 e0, limit (t :: T) t0 e0 <-> (t0 = t /\ e0 = e) \/ limit T t0 e0).
      { intros t0 e0. split.
        - intros [I0 L0]. destruct I0 as [<-|I0].
          + left. split; [reflexivity|]. destruct L as [_ L]. destruct L0 as [[X1 [X2 X3]]|[X1 X2]], L as [[Y1 [Y2 Y3]]|[Y1 Y2]].
            * specialize (X3 _ Y2 Y1). specialize (Y3 _ X2 X1). lia.
            * specialize (Y1 _ X2). lia.
            * specialize (X1 _ Y2). lia.
            * lia.
          + right. pose proof (F _ I0). split; [auto|]. destruct L0 as [[X1 [X2 X3]]|[X1 X2]].
            * left. split; [auto|]. split; [destruct X2 as [<-|]; [lia|auto]|]. intros; apply X3; auto. right; auto.
            * right. split; [|auto]. intros; apply X1; right; auto.
        - intros [[-> ->]|[I0 L0]]; [exact L|]. pose proof (F _ I0). split; [right; auto|].
          destruct L0 as [[X1 [X2 X3]]|[X1 X2]].
          + left. split; [auto|]. split; [right; auto|]. intros t' [<-|I'] Lt; [lia|]. auto.
          + right. split; [|auto]. intros t' [<-|I']; [lia|]. auto. }
      split.
      + rewrite map_app. apply ChainAsmProofs.NoDup_app_intro; auto. intros k I1 I2.
        apply in_map_iff in I1. apply in_map_iff in I2.
        destruct I1 as [[[s1 x1] v1] [K1 I1]], I2 as [[[s2 x2] v2] [K2 I2]]. cbn [fst] in *. subst k.
        injection K2 as -> ->. apply S4 in I1. destruct I1 as [[_ [R1 _]] _].
        apply Sl in I2. destruct I2 as [t0 [e0 [[I0 _] [[_ [R2 _]] _]]]].
        specialize (E3 _ I0). lia.
      + intros s x v. rewrite in_app_iff, S4, Sl. split.
        * intros [G|[t0 [e0 [L0 G]]]].
          -- exists t, e. tauto.
          -- exists t0, e0. rewrite LE. tauto.
        * intros [t0 [e0 [L0 G]]]. rewrite LE in L0. destruct L0 as [[-> ->]|L0]; [left; exact G|right; eauto].
  Qed.
End Scan.

(** ** The file name and the mapping *)
Lemma bytes_eqb_spec a : forall b, bytes_eqb a b = true <-> a = b.
Proof.
  induction a as [|x a IH]; intros [|y b]; cbn [bytes_eqb]; try (split; [discriminate|discriminate]); [split; auto|].
  rewrite Bool.andb_true_iff, Z.eqb_eq, IH. split; [intros [-> ->]; reflexivity|].
  intros E. injection E. auto.
Qed.

Lemma existsb_47 p : existsb (Z.eqb 47) p = true <-> In 47 p.
Proof.
  rewrite existsb_exists. split; [intros [x [I E]]; apply Z.eqb_eq in E; subst; auto|].
  intros I. exists 47. auto.
Qed.

Lemma base_name_names p : names_file p (base_name p).
Proof.
  unfold names_file. induction p as [|c p IH]; cbn [base_name]; [split; [intros []|left; reflexivity]|].
  destruct (existsb (Z.eqb 47) p) eqn:E.
  - destruct IH as [N H]. split; [exact N|]. right. destruct H as [H|[d H]].
    + exfalso. apply existsb_47 in E. rewrite <- H in N. auto.
    + exists (c :: d). rewrite H at 1. reflexivity.
  - assert (N : ~ In 47 p) by (intros I; apply existsb_47 in I; congruence).
    destruct (Z.eqb_spec c 47) as [->|NE].
    + split; [exact N|]. right. exists []. reflexivity.
    + split; [|left; reflexivity]. intros [H|H]; auto.
Qed.

Lemma names_file_unique p n m : names_file p n -> names_file p m -> n = m.
Proof.
  intros [N1 H1] [N2 H2].
  assert (G : forall d (n m : list Z) d', d ++ 47 :: n = d' ++ 47 :: m -> ~ In 47 n -> ~ In 47 m -> n = m).
  { clear. induction d as [|x d IH]; intros n m d' E N1 N2.
    - destruct d' as [|y d']; [injection E; auto|]. injection E as _ E. exfalso. apply N1. rewrite E.
      apply in_app_iff. right. left. reflexivity.
    - destruct d' as [|y d']; cbn [app] in E.
      + injection E as _ E. exfalso. apply N2. rewrite <- E. apply in_app_iff. right. left. reflexivity.
      + injection E as _ E. eauto. }
  destruct H1 as [->|[d ->]], H2 as [H2|[d2 H2]]; auto.
  - exfalso. apply N1. rewrite H2. apply in_app_iff. right. left. reflexivity.
  - exfalso. apply N2. rewrite <- H2. apply in_app_iff. right. left. reflexivity.
  - eauto.
Qed.

Lemma same_file_name_spec p q : bytes_eqb (base_name p) (base_name q) = true <-> same_file_name p q.
Proof.
  rewrite bytes_eqb_spec. split.
  - intros E. exists (base_name p). split; [apply base_name_names|]. rewrite E. apply base_name_names.
  - intros [n [H1 H2]]. rewrite (names_file_unique p _ n (base_name_names p) H1).
    rewrite (names_file_unique q _ n (base_name_names q) H2). reflexivity.
Qed.

Definition to_mapping (m : mmap_info) : mapping :=
  {| mp_start := load_addr m; mp_len := load_size m; mp_pgoff := page_offset m |}.
Definition of_mapping (m : mapping) : mmap_info :=
  {| load_addr := mp_start m; load_size := mp_len m; page_offset := mp_pgoff m |}.

Lemma FindBinaryMMap_spec es binary :
  match FindBinaryMMap es binary with
  | Some m => first_mapping es binary (to_mapping m)
  | None => forall a l o f, In (Mmap a l o f) es -> ~ same_file_name f binary
  end.
Proof.
  induction es as [|e es IH]; cbn [FindBinaryMMap]; [intros a l o f []|].
  assert (K : (forall a l o f, e = Mmap a l o f -> ~ same_file_name f binary) ->
    match FindBinaryMMap es binary with
    | Some m => first_mapping (e :: es) binary (to_mapping m)
    | None => forall a l o f, In (Mmap a l o f) (e :: es) -> ~ same_file_name f binary
    end).
  { intros N. destruct (FindBinaryMMap es binary) as [m|].
    - destruct IH as [b [f [a [E [S B]]]]]. exists (e :: b), f, a. split; [rewrite E; reflexivity|].
      split; [exact S|]. intros a0 l0 o0 f0 [->|I]; [eapply N; reflexivity|eapply B; eauto].
    - intros a l o f [->|I]; [eapply N; reflexivity|eapply IH; eauto]. }
  destruct e as [st0 ln pg file|rs|]; try (apply K; discriminate).
  destruct (bytes_eqb (base_name file) (base_name binary)) eqn:E.
  - apply same_file_name_spec in E. exists [], file, es. split; [reflexivity|]. split; [exact E|]. intros ? ? ? ? [].
  - apply K. intros a l o f H S. injection H as <- <- <- <-. apply same_file_name_spec in S. congruence.
Qed.

Lemma first_mapping_unique es binary m1 m2 :
  first_mapping es binary m1 -> first_mapping es binary m2 -> m1 = m2.
Proof.
  intros [b1 [f1 [a1 [E1 [S1 B1]]]]] [b2 [f2 [a2 [E2 [S2 B2]]]]]. rewrite E1 in E2. clear E1.
  revert b2 E2 B2. induction b1 as [|x b1 IH]; intros [|y b2] E2 B2; cbn [app] in E2.
  - destruct m1, m2. cbn in E2. injection E2. intros. subst. reflexivity.
  - injection E2 as E _. exfalso. eapply B2; [left; symmetry; exact E|exact S1].
  - injection E2 as E _. exfalso. eapply B1; [left; exact E|exact S2].
  - injection E2 as -> E2. apply (IH ltac:(intros; eapply B1; right; eauto) b2 E2).
    intros. eapply B2; right; eauto.
Qed.

(** ** Counting *)
Section Counting.
  Variable mp : mapping.
  Hypothesis ok : 0 <= mp_start mp /\ 0 <= mp_len mp /\ mp_start mp + mp_len mp < 2 ^ 64 /\
    0 <= mp_pgoff mp /\ mp_pgoff mp + mp_len mp + 4096 <= 2 ^ 64.
  Notation m := (of_mapping mp).

  Lemma va_spec va : (va =? 0) = false /\ (VaToBinaryOffset m va =? 0) = false <-> mapped mp va = true.
  Proof.
    unfold VaToBinaryOffset, Contains, mapped, of_mapping, offset. cbn.
    assert (E : u64 (mp_start mp + mp_len mp) = mp_start mp + mp_len mp) by (apply Z.mod_small; unfold w64; lia).
    rewrite E. destruct (Z.leb_spec (mp_start mp) va); cbn [andb];
      [destruct (Z.ltb_spec va (mp_start mp + mp_len mp)); cbn [andb]|].
    - assert (u64 (u64 (va - mp_start mp) + mp_pgoff mp) = va - mp_start mp + mp_pgoff mp) as ->.
      { unfold u64. rewrite (Z.mod_small (va - mp_start mp)) by (unfold w64; lia).
        apply Z.mod_small. unfold w64; lia. }
      destruct (va =? 0), (va - mp_start mp + mp_pgoff mp =? 0); cbn; intuition discriminate.
    - cbn. intuition discriminate.
    - cbn. intuition discriminate.
  Qed.
  Lemma va_offset va : mapped mp va = true -> VaToBinaryOffset m va = offset mp va.
  Proof.
    unfold VaToBinaryOffset, Contains, mapped, of_mapping, offset. cbn.
    assert (E : u64 (mp_start mp + mp_len mp) = mp_start mp + mp_len mp) by (apply Z.mod_small; unfold w64; lia).
    rewrite E. rewrite !Bool.andb_true_iff, Z.leb_le, Z.ltb_lt. intros [[[A B] _] _].
    destruct (Z.leb_spec (mp_start mp) va); [|lia]. destruct (Z.ltb_spec va (mp_start mp + mp_len mp)); [|lia].
    cbn [andb]. unfold u64. rewrite (Z.mod_small (va - mp_start mp)) by (unfold w64; lia).
    apply Z.mod_small. unfold w64; lia.
  Qed.

  Definition stay_inc (r : spe_record) : list (Z * Z) :=
    if stays_at mp (offset mp (r_ip r)) r then [(offset mp (r_ip r), 1)] else [].
  Definition jump_inc (r : spe_record) : list ((Z * Z) * Z) :=
    if jumps mp (offset mp (r_ip r)) (offset mp (r_target r)) r
    then [((offset mp (r_ip r), offset mp (r_target r)), 1)] else [].

  Lemma step_spec s r :
    st_addr (step m s r) = madd_all Z.eqb (stay_inc r) (st_addr s) /\
    st_branch (step m s r) = madd_all pair_eqb (jump_inc r) (st_branch s) /\
    st_total (step m s r) = (if counts mp r then u64 (st_total s + 1) else st_total s) /\
    st_spe_events (step m s r) = st_spe_events s /\
    st_branch_records (step m s r)
      = (if r_retired r && r_branch r then u64 (st_branch_records s + 1) else st_branch_records s).
  Proof.
    unfold step, stay_inc, jump_inc, counts, stays_at, jumps. rewrite !Z.eqb_refl, !Bool.andb_true_r.
    destruct (r_retired r), (r_branch r); cbn [negb orb andb]; try (cbn; auto 6; fail).
    pose proof (va_spec (r_ip r)) as V. pose proof (va_offset (r_ip r)) as V2.
    pose proof (va_spec (r_target r)) as W. pose proof (va_offset (r_target r)) as W2.
    destruct (r_ip r =? 0) eqn:E1.
    { assert (mapped mp (r_ip r) = false) as ->.
      { destruct (mapped mp (r_ip r)); auto. destruct V as [_ V]. destruct (V eq_refl). discriminate. }
      rewrite !Bool.andb_false_r. cbn. rewrite ?Bool.andb_false_r. cbn. auto 6. }
    destruct (VaToBinaryOffset m (r_ip r) =? 0) eqn:E2.
    { assert (mapped mp (r_ip r) = false) as ->.
      { destruct (mapped mp (r_ip r)); auto. destruct V as [_ V]. destruct (V eq_refl). discriminate. }
      rewrite !Bool.andb_false_r. cbn. rewrite ?Bool.andb_false_r. cbn. auto 6. }
    assert (M1 : mapped mp (r_ip r) = true) by (apply V; auto). rewrite M1, (V2 M1). clear V V2.
    destruct (r_cond r && r_not_taken r); cbn [negb andb orb]; [cbn; auto 6|].
    destruct (r_target r =? 0) eqn:E3.
    { assert (mapped mp (r_target r) = false) as ->.
      { destruct (mapped mp (r_target r)); auto. destruct W as [_ W]. destruct (W eq_refl). discriminate. }
      cbn. auto 6. }
    destruct (VaToBinaryOffset m (r_target r) =? 0) eqn:E4.
    { assert (mapped mp (r_target r) = false) as ->.
      { destruct (mapped mp (r_target r)); auto. destruct W as [_ W]. destruct (W eq_refl). discriminate. }
      cbn. auto 6. }
    assert (M2 : mapped mp (r_target r) = true) by (apply W; auto). rewrite M2, (W2 M2). cbn. auto 6.
  Qed.

  Lemma madd_all_app {K} (eqb : K -> K -> bool) a b c :
    madd_all eqb (a ++ b) c = madd_all eqb b (madd_all eqb a c).
  Proof. apply fold_left_app. Qed.

  Lemma steps_spec rs : forall s,
    st_addr (fold_left (step m) rs s) = madd_all Z.eqb (flat_map stay_inc rs) (st_addr s) /\
    st_branch (fold_left (step m) rs s) = madd_all pair_eqb (flat_map jump_inc rs) (st_branch s) /\
    u64 (st_total (fold_left (step m) rs s)) = u64 (st_total s + zlen (filter (counts mp) rs)) /\
    st_spe_events (fold_left (step m) rs s) = st_spe_events s /\
    u64 (st_branch_records (fold_left (step m) rs s))
      = u64 (st_branch_records s + zlen (filter (fun r => r_retired r && r_branch r) rs)).
  Proof.
    induction rs as [|r rs IH]; intros s; cbn [fold_left flat_map filter].
    - cbn. rewrite !Z.add_0_r. auto 6.
    - destruct (step_spec s r) as [S1 [S2 [S3 [S4 S5]]]].
      destruct (IH (step m s r)) as [I1 [I2 [I3 [I4 I5]]]].
      rewrite !madd_all_app, I1, I2, I3, I4, I5, S1, S2, S3, S4, S5.
      split; [reflexivity|]. split; [reflexivity|].
      split; [|split; [reflexivity|]].
      + destruct (counts mp r); [rewrite zlen_cons|reflexivity]. unfold u64.
        rewrite Zplus_mod_idemp_l. f_equal. lia.
      + destruct (r_retired r && r_branch r); [rewrite zlen_cons|reflexivity]. unfold u64.
        rewrite Zplus_mod_idemp_l. f_equal. lia.
  Qed.

  Definition is_aux (e : event) : bool := match e with Auxtrace _ => true | _ => false end.
  Lemma events_spec es : forall s,
    st_addr (fold_left (step_event m) es s) = madd_all Z.eqb (flat_map stay_inc (records_of es)) (st_addr s) /\
    st_branch (fold_left (step_event m) es s)
      = madd_all pair_eqb (flat_map jump_inc (records_of es)) (st_branch s) /\
    u64 (st_total (fold_left (step_event m) es s))
      = u64 (st_total s + zlen (filter (counts mp) (records_of es))) /\
    u64 (st_spe_events (fold_left (step_event m) es s))
      = u64 (st_spe_events s + zlen (filter is_aux es)) /\
    u64 (st_branch_records (fold_left (step_event m) es s))
      = u64 (st_branch_records s + zlen (filter (fun r => r_retired r && r_branch r) (records_of es))).
  Proof.
    induction es as [|e es IH]; intros s; cbn [fold_left].
    - cbn. rewrite !Z.add_0_r. auto 6.
    - destruct e as [a l o f|rs|].
      + apply IH.
      + cbn [step_event].
        set (s1 := {| st_addr := st_addr s; st_branch := st_branch s; st_total := st_total s;
           st_spe_events := u64 (st_spe_events s + 1); st_branch_records := st_branch_records s |}).
        destruct (steps_spec rs s1) as [S1 [S2 [S3 [S4 S5]]]].
        destruct (IH (fold_left (step m) rs s1)) as [I1 [I2 [I3 [I4 I5]]]].
        change (records_of (Auxtrace rs :: es)) with (rs ++ records_of es).
        rewrite !flat_map_app, !madd_all_app, !filter_app, !zlen_app, I1, I2, I3, I4, I5, S1, S2, S4.
        split; [reflexivity|]. split; [reflexivity|].
        cbn [filter is_aux]. rewrite zlen_cons. unfold u64 in *.
        split; [|split].
        * rewrite <- Zplus_mod_idemp_l, S3, Zplus_mod_idemp_l. cbn [s1 st_total]. f_equal. lia.
        * cbn [s1 st_spe_events]. rewrite Zplus_mod_idemp_l. f_equal. lia.
        * rewrite <- Zplus_mod_idemp_l, S5, Zplus_mod_idemp_l. cbn [s1 st_branch_records]. f_equal. lia.
      + apply IH.
  Qed.

  Lemma sum_stay a rs : sum_at Z.eqb a (flat_map stay_inc rs) = zlen (filter (stays_at mp a) rs).
  Proof.
    induction rs as [|r rs IH]; [reflexivity|]. cbn [flat_map filter].
    unfold stay_inc at 1. unfold stays_at in IH |- *. rewrite Z.eqb_refl, Bool.andb_true_r.
    destruct (r_retired r && r_branch r && (r_cond r && r_not_taken r) && mapped mp (r_ip r)); cbn [andb app].
    - cbn [sum_at fold_right fst snd]. fold (sum_at Z.eqb a (flat_map stay_inc rs)). rewrite IH.
      rewrite Z.eqb_sym. destruct (offset mp (r_ip r) =? a); [rewrite zlen_cons|]; lia.
    - exact IH.
  Qed.

  Lemma sum_jump a t rs : sum_at pair_eqb (a, t) (flat_map jump_inc rs) = zlen (filter (jumps mp a t) rs).
  Proof.
    induction rs as [|r rs IH]; [reflexivity|]. cbn [flat_map filter].
    unfold jump_inc at 1. unfold jumps in IH |- *. rewrite !Z.eqb_refl, !Bool.andb_true_r.
    destruct (r_retired r && r_branch r && negb (r_cond r && r_not_taken r) && mapped mp (r_ip r)
              && mapped mp (r_target r)); cbn [andb app].
    - cbn [sum_at fold_right fst snd]. fold (sum_at pair_eqb (a, t) (flat_map jump_inc rs)). rewrite IH.
      unfold pair_eqb. cbn [fst snd]. rewrite (Z.eqb_sym a), (Z.eqb_sym t).
      destruct (offset mp (r_ip r) =? a), (offset mp (r_target r) =? t); cbn [andb]; [rewrite zlen_cons|..]; lia.
    - exact IH.
  Qed.

  Lemma sum_target t rs :
    sum_at Z.eqb t (map (fun e => (snd (fst e), snd e)) (flat_map jump_inc rs)) = zlen (filter (jumps_to mp t) rs).
  Proof.
    induction rs as [|r rs IH]; [reflexivity|]. cbn [flat_map filter].
    unfold jump_inc at 1. unfold jumps_to, jumps in IH |- *. rewrite !Z.eqb_refl, !Bool.andb_true_r.
    destruct (r_retired r && r_branch r && negb (r_cond r && r_not_taken r) && mapped mp (r_ip r)
              && mapped mp (r_target r)); cbn [andb app].
    - cbn [map sum_at fold_right fst snd].
      fold (sum_at Z.eqb t (map (fun e => (snd (fst e), snd e)) (flat_map jump_inc rs))). rewrite IH.
      rewrite Z.eqb_sym. destruct (offset mp (r_target r) =? t); [rewrite zlen_cons|]; lia.
    - exact IH.
  Qed.
End Counting.

(** a map built from ones *)
Lemma aget_counted {K} (eqb : K -> K -> bool) (sp : forall a b, reflect (a = b) (eqb a b)) l k :
  Forall (fun e => snd e = 1) l -> zlen l < 2 ^ 64 ->
  aget eqb k (madd_all eqb l []) = entry_of (sum_at eqb k l) /\ 0 <= sum_at eqb k l < 2 ^ 64.
Proof.
  intros F B.
  assert (R : 0 <= sum_at eqb k l <= zlen l /\ (0 < sum_at eqb k l <-> In k (akeys l))).
  { clear B. induction F as [|[k' c] l E F IH]; [cbn; split; [lia|split; [lia|intros []]]|].
    cbn [snd] in E. subst c. cbn [sum_at fold_right fst snd]. fold (sum_at eqb k l).
    change (akeys ((k', 1) :: l)) with (k' :: akeys l). cbn [In]. rewrite zlen_cons.
    destruct (sp k k') as [->|NE]; [split; [lia|split; [auto|lia]]|].
    split; [lia|]. destruct IH as [IH1 [IH2 IH3]]. split; [intros; right; apply IH2; lia|].
    intros [Q|Q]; [congruence|]. apply IH3 in Q. lia. }
  split; [|lia].
  pose proof (cnt_madd_all_small eqb sp l [] k) as C. unfold cnt in C. cbn [aget] in C.
  specialize (C ltac:(intros; lia)). rewrite Z.add_0_l in C.
  unfold u64 in C. rewrite Z.mod_small in C by (unfold w64; lia).
  pose proof (keys_madd_all eqb sp l [] k) as KS. cbn [akeys map In] in KS.
  unfold entry_of. destruct (aget eqb k (madd_all eqb l [])) as [c|] eqn:E.
  - assert (I : In k (akeys (madd_all eqb l []))).
    { apply (aget_In eqb sp) in E. apply in_map_iff. exists (k, c). auto. }
    apply KS in I. destruct I as [[]|I]. apply R in I. destruct (Z.eqb_spec (sum_at eqb k l) 0); [lia|]. congruence.
  - destruct (Z.eqb_spec (sum_at eqb k l) 0) as [Q|NE]; [reflexivity|]. exfalso. lia.
Qed.

(** ** The ranges *)
Section Ranges.
  Variables (mp : mapping) (events : list event).
  Hypothesis ok : a64_file mp events.
  Notation rs := (records_of events).
  Notation A := (madd_all Z.eqb (flat_map (stay_inc mp) rs) []).
  Notation B := (madd_all pair_eqb (flat_map (jump_inc mp) rs) []).
  Notation inc := (madd_all Z.eqb (map (fun e => (snd (fst e), snd e)) B) []).

  Lemma zlen_stay l : zlen (flat_map (stay_inc mp) l) <= zlen l.
  Proof.
    induction l as [|r l IH]; [cbn; lia|]. cbn [flat_map]. rewrite zlen_app, zlen_cons. unfold stay_inc at 1.
    destruct (stays_at _ _ _); [rewrite zlen_cons|]; rewrite ?zlen_nil; lia.
  Qed.
  Lemma zlen_jump l : zlen (flat_map (jump_inc mp) l) <= zlen l.
  Proof.
    induction l as [|r l IH]; [cbn; lia|]. cbn [flat_map]. rewrite zlen_app, zlen_cons. unfold jump_inc at 1.
    destruct (jumps _ _ _); [rewrite zlen_cons|]; rewrite ?zlen_nil; lia.
  Qed.
  Lemma ones_stay l : Forall (fun e => snd e = 1) (flat_map (stay_inc mp) l).
  Proof.
    induction l as [|r l IH]; [constructor|]. cbn [flat_map]. apply Forall_app. split; auto.
    unfold stay_inc. destruct (stays_at _ _ _); auto.
  Qed.
  Lemma ones_jump l : Forall (fun e => snd e = 1) (flat_map (jump_inc mp) l).
  Proof.
    induction l as [|r l IH]; [constructor|]. cbn [flat_map]. apply Forall_app. split; auto.
    unfold jump_inc. destruct (jumps _ _ _); auto.
  Qed.

  Lemma A_spec a : aget Z.eqb a A = entry_of (stays mp events a) /\ 0 <= stays mp events a < 2 ^ 64.
  Proof.
    unfold stays, how_many. rewrite <- sum_stay. apply (aget_counted Z.eqb Z_eqb_reflect); [apply ones_stay|].
    pose proof (zlen_stay rs). unfold a64_file in ok. lia.
  Qed.
  Lemma B_spec a t : aget pair_eqb (a, t) B = entry_of (taken mp events a t) /\ 0 <= taken mp events a t < 2 ^ 64.
  Proof.
    unfold taken, how_many. rewrite <- sum_jump. apply (aget_counted pair_eqb pair_eqb_spec); [apply ones_jump|].
    pose proof (zlen_jump rs). unfold a64_file in ok. lia.
  Qed.

  Lemma sum_at_wtot t (l : list ((Z * Z) * Z)) :
    sum_at Z.eqb t (map (fun e => (snd (fst e), snd e)) l)
    = wtot (fun k : Z * Z => if t =? snd k then 1 else 0) l.
  Proof.
    induction l as [|e l IH]; [reflexivity|]. cbn [map sum_at wtot fold_right fst snd] in *.
    fold (sum_at Z.eqb t (map (fun e => (snd (fst e), snd e)) l)). unfold sum_at, wtot in *. rewrite IH.
    destruct (t =? snd (fst e)); lia.
  Qed.

  Lemma filter_le {X} (p : X -> bool) l : zlen (filter p l) <= zlen l.
  Proof. induction l as [|x l IH]; cbn [filter]; [lia|]. destruct (p x); rewrite ?zlen_cons; lia. Qed.

  Lemma inc_keys t : In t (akeys inc) <-> is_target mp events t.
  Proof.
    rewrite (keys_madd_all Z.eqb Z_eqb_reflect). cbn [akeys map In].
    unfold is_target, entries, how_many. rewrite <- sum_target.
    assert (G : forall l, Forall (fun e : (Z * Z) * Z => snd e = 1) l ->
      (0 < sum_at Z.eqb t (map (fun e => (snd (fst e), snd e)) l) <-> exists a, In (a, t) (akeys l)) /\
      0 <= sum_at Z.eqb t (map (fun e => (snd (fst e), snd e)) l)).
    { induction 1 as [|[[a b] c] l E F IH]; [cbn; split; [split; [lia|intros [a []]]|lia]|].
      cbn [snd] in E. subst c. cbn [map sum_at fold_right fst snd].
      fold (sum_at Z.eqb t (map (fun e : (Z * Z) * Z => (snd (fst e), snd e)) l)).
      change (akeys ((a, b, 1) :: l)) with ((a, b) :: akeys l). cbn [In].
      destruct (Z.eqb_spec t b) as [->|NE]; (split; [|lia]); split.
      - intros _. exists a. auto.
      - lia.
      - intros H. destruct (proj1 (proj1 IH)) as [a' I]; [lia|]. eauto.
      - intros [a' [E|I]]; [congruence|]. assert (0 < sum_at Z.eqb t (map (fun e : (Z * Z) * Z => (snd (fst e), snd e)) l)); [|lia].
        apply IH. eauto. }
    rewrite (proj1 (G _ (ones_jump rs))). split.
    - intros [[]|I]. unfold akeys in I. rewrite map_map in I. apply in_map_iff in I.
      destruct I as [[[a t'] c] [E I]]. cbn [fst snd] in E. subst t'. exists a.
      assert (I' : In (a, t) (akeys B)) by (apply in_map_iff; exists (a, t, c); auto).
      apply (keys_madd_all pair_eqb pair_eqb_spec) in I'. destruct I' as [[]|I']. exact I'.
    - intros [a I]. right. unfold akeys. rewrite map_map. cbn [fst snd].
      assert (I' : In (a, t) (akeys B)) by (apply (keys_madd_all pair_eqb pair_eqb_spec); right; exact I).
      apply in_map_iff in I'. destruct I' as [[k c] [E I']]. cbn [fst] in E. subst k.
      apply in_map_iff. exists (a, t, c). auto.
  Qed.

  Lemma inc_wt t : wt inc t = entries mp events t.
  Proof.
    unfold wt. change (cnt Z.eqb inc t = entries mp events t).
    rewrite (cnt_madd_all_small Z.eqb Z_eqb_reflect) by (intros; cbn; lia).
    rewrite sum_at_wtot.
    change (cnt Z.eqb [] t) with 0. rewrite Z.add_0_l.
    rewrite (wtot_madd_all pair_eqb _ pair_eqb_spec). rewrite <- (sum_at_wtot t (flat_map (jump_inc mp) rs)), sum_target.
    unfold entries, how_many. cbn [wtot fold_right]. apply Z.mod_small.
    pose proof (filter_le (jumps_to mp t) rs). pose proof (zlen_nonneg (filter (jumps_to mp t) rs)).
    unfold a64_file in ok. unfold w64. cbn. lia.
  Qed.

  Lemma off_ok va : mapped mp va = true -> va mod 4 = 0 ->
    0 < offset mp va /\ offset mp va mod 4 = 0 /\ offset mp va + 4096 < w64.
  Proof.
    unfold mapped, a64_file in *. rewrite !Bool.andb_true_iff, !Bool.negb_true_iff, Z.leb_le, Z.ltb_lt, !Z.eqb_neq.
    unfold offset, w64. intros [[[H1 H2] H3] H4] H5. destruct ok as [K1 [K2 [K3 [K4 [K5 [[K6 K7] K8]]]]]].
    clear K8. split; [lia|]. split; [|lia]. clear - K6 K7 H5. Z.div_mod_to_equations. lia.
  Qed.

  Lemma count_pos p : 0 < how_many p events <-> exists r, In r rs /\ p r = true.
  Proof.
    unfold how_many. split.
    - intros H. destruct (filter p rs) as [|r l] eqn:E; [cbn in H; lia|]. exists r.
      assert (I : In r (filter p rs)) by (rewrite E; left; auto). apply filter_In in I. exact I.
    - intros [r [I P]]. assert (J : In r (filter p rs)) by (apply filter_In; auto).
      destruct (filter p rs); [destruct J|]. rewrite zlen_cons. pose proof (zlen_nonneg l). lia.
  Qed.

  Lemma rec_al r : In r rs -> r_ip r mod 4 = 0 /\ r_target r mod 4 = 0.
  Proof.
    intros I. destruct ok as [_ [_ [_ [_ [_ [_ [F _]]]]]]]. rewrite Forall_forall in F. apply (F r I).
  Qed.

  Lemma target_ok t : is_target mp events t -> 0 < t /\ t mod 4 = 0 /\ t + 4096 < w64.
  Proof.
    intros H. apply count_pos in H. destruct H as [r [I P]]. destruct (rec_al r I) as [_ AL].
    unfold jumps_to, jumps in P. rewrite !Bool.andb_true_iff, !Z.eqb_eq in P.
    destruct P as [[[_ M] _] <-]. apply off_ok; auto.
  Qed.

  Lemma branch_ok b : is_branch mp events b -> 0 < b /\ b mod 4 = 0.
  Proof.
    intros [H|[t H]]; apply count_pos in H; destruct H as [r [I P]]; destruct (rec_al r I) as [AL _].
    - unfold stays_at in P. rewrite !Bool.andb_true_iff, !Z.eqb_eq in P.
      destruct P as [[_ M] <-]. destruct (off_ok _ M AL); tauto.
    - unfold jumps in P. rewrite !Bool.andb_true_iff, !Z.eqb_eq in P.
      destruct P as [[[[_ M] _] <-] _]. destruct (off_ok _ M AL); tauto.
  Qed.

  Lemma bs_In b : In b (isort Z.leb (map (fun e : (Z * Z) * Z => fst (fst e)) B ++ map fst A))
    <-> is_branch mp events b.
  Proof.
    rewrite isort_In, in_app_iff. unfold is_branch.
    assert (G1 : In b (map fst A) <-> 0 < stays mp events b).
    { destruct (A_spec b) as [E R]. pose proof (aget_None_iff Z.eqb Z_eqb_reflect b A) as K. unfold akeys in K.
      unfold entry_of in E. destruct (Z.eqb_spec (stays mp events b) 0) as [Q|Q].
      - split; [|lia]. intros I. exfalso. apply K; auto.
      - split; [lia|]. intros _. apply (aget_In Z.eqb Z_eqb_reflect) in E. apply in_map_iff. eexists. split; [|exact E]. reflexivity. }
    assert (G2 : In b (map (fun e : (Z * Z) * Z => fst (fst e)) B) <-> exists t, 0 < taken mp events b t).
    { split.
      - intros I. apply in_map_iff in I. destruct I as [[[b' t] c] [E I]]. cbn [fst] in E. subst b'. exists t.
        destruct (B_spec b t) as [E R]. unfold entry_of in E.
        destruct (Z.eqb_spec (taken mp events b t) 0) as [Q|Q]; [|lia]. exfalso.
        apply (aget_None_iff pair_eqb pair_eqb_spec (b, t) B) in E. apply E. apply in_map_iff. exists (b, t, c). auto.
      - intros [t H]. destruct (B_spec b t) as [E R]. unfold entry_of in E.
        destruct (Z.eqb_spec (taken mp events b t) 0) as [Q|Q]; [lia|].
        apply (aget_In pair_eqb pair_eqb_spec) in E. apply in_map_iff. eexists. split; [|exact E]. reflexivity. }
    rewrite G1, G2. tauto.
  Qed.

  Lemma A_st b : st A b = stays mp events b.
  Proof.
    unfold st. destruct (A_spec b) as [-> R]. unfold entry_of.
    destruct (Z.eqb_spec (stays mp events b) 0); lia.
  Qed.

  Lemma synth : exists R, SynthesizeRanges A B = Ok R /\ NoDup (akeys R) /\
    (forall s x w, aget pair_eqb (s, x) R = Some w <-> run mp events s x w) /\
    (forall e, In e R -> u64_range (snd e)).
  Proof.
    unfold SynthesizeRanges. cbv zeta.
    set (bs := isort Z.leb (map (fun e : (Z * Z) * Z => fst (fst e)) B ++ map fst A)).
    set (T := isort Z.leb (map fst inc)).
    assert (TI : forall t, In t T <-> is_target mp events t).
    { intros t. unfold T. rewrite isort_In. apply inc_keys. }
    assert (TS : StronglySorted Z.lt T).
    { apply (StronglySorted_NoDup_strict (le_prop Z.leb)).
      - apply isort_sorted; unfold le_prop; intros; lia.
      - eapply Permutation_NoDup; [apply isort_perm|].
        apply (NoDup_madd_all Z.eqb Z_eqb_reflect). constructor.
      - intros x y _ _ NE L. unfold le_prop in L. lia. }
    destruct (scan_targets_spec bs A) with (inc := inc) (T := T) as [l [El [Nl Sl]]].
    - unfold bs. apply isort_sorted; unfold le_prop; intros; lia.
    - intros b I. unfold bs in I. apply bs_In in I. destruct (branch_ok b I). lia.
    - intros b. rewrite A_st. destruct (A_spec b). lia.
    - intros t. rewrite inc_wt. unfold entries, how_many. apply zlen_nonneg.
    - exact TS.
    - intros t I. apply TI in I. destruct (target_ok t I). lia.
    - rewrite El. cbn [obind].
      assert (TL : forall t e, limit T t e <-> follows_to mp events t e).
      { intros t e. unfold limit, follows_to. rewrite TI. split; intros [I H]; (split; [exact I|]).
        - destruct H as [[H1 [H2 H3]]|[H1 H2]]; [left|right]; (split; [|auto]); auto.
          + split; [apply TI; exact H2|]. intros; apply H3; auto. apply TI; auto.
          + intros; apply H1; apply TI; auto.
        - destruct H as [[H1 [H2 H3]]|[H1 H2]]; [left|right]; (split; [|auto]); auto.
          + split; [apply TI; exact H2|]. intros; apply H3; auto. apply TI; auto.
          + intros; apply H1; apply TI; auto. }
      assert (LR : forall s x v, In ((s, x), v) l <-> run mp events s x v).
      { intros s x v. rewrite Sl. unfold run, run_start, run_end.
        assert (GE : forall e, gend bs e s x <->
           (is_branch mp events x /\ s <= x < e /\ forall b, is_branch mp events b -> s <= b -> x <= b) \/
           ((forall b, is_branch mp events b -> s <= b -> e <= b) /\ x = e - 4)).
        { intros e. unfold gend, bs. setoid_rewrite bs_In. reflexivity. }
        split.
        - intros [t [e [L [[G1 [G2 G3]] [G4 G5]]]]]. apply TL in L. apply GE in G5.
          exists t, e. split; [|exact G5]. split; [exact L|]. split; [exact G2|].
          destruct G3 as [[-> ->]|[G3 [G6 [G7 [G8 G9]]]]]; [left; rewrite inc_wt; auto|].
          right. split; [auto|]. rewrite A_st in G6. split; [auto|]. split; [apply bs_In; exact G7|].
          split; [auto|]. intros b Ib R. rewrite <- A_st. apply G9; auto. apply bs_In; auto.
        - intros [t [e [[L [G2 G3]] G5]]]. pose proof L as [IT _].
          exists t, e. split; [apply TL; exact L|].
          assert (W : 0 < wt inc t) by (rewrite inc_wt; exact IT).
          assert (V : 0 < v).
          { destruct G3 as [[-> ->]|[G3 [G6 [G7 [G8 G9]]]]]; [exact IT|]. rewrite G6. apply G9; auto. lia. }
          split; [|split; [exact V|apply GE; exact G5]].
          split; [exact W|]. split; [exact G2|].
          destruct G3 as [[-> ->]|[G3 [G6 [G7 [G8 G9]]]]]; [left; rewrite inc_wt; auto|].
          right. split; [auto|]. split; [rewrite A_st; auto|]. split; [apply bs_In; exact G7|].
          split; [auto|]. intros b Ib R. rewrite A_st. apply G9; auto. apply bs_In; auto. }
      assert (VB : forall e, In e l -> u64_range (snd e)).
      { intros [[s x] v] I. cbn [snd]. apply LR in I. destruct I as [t [e [[_ [_ G]] _]]].
        destruct G as [[_ ->]|[_ [-> _]]].
        - unfold u64_range, entries, how_many. pose proof (filter_le (jumps_to mp t) rs).
          pose proof (zlen_nonneg (filter (jumps_to mp t) rs)). unfold a64_file in ok. lia.
        - apply (A_spec (s - 4)). }
      rewrite (madd_all_fresh pair_eqb pair_eqb_spec l []);
        [|exact Nl|apply Forall_forall; intros e I; apply VB; exact I].
      cbn [app]. exists l. split; [reflexivity|]. split; [exact Nl|]. split; [|exact VB].
      intros s x w. rewrite <- LR. split.
      + apply (aget_In pair_eqb pair_eqb_spec).
      + apply (aget_NoDup_In pair_eqb pair_eqb_spec). exact Nl.
  Qed.

  Lemma least (l : list Z) lo :
    (exists m, In m l /\ lo <= m /\ forall x, In x l -> lo <= x -> m <= x) \/ (forall x, In x l -> x < lo).
  Proof.
    clear. induction l as [|a l IH]; [right; intros x []|].
    destruct IH as [[m [I [L M]]]|N]; destruct (Z.le_gt_cases lo a) as [La|La].
    - left. exists (Z.min a m). split.
      + destruct (Z.min_spec a m) as [[_ ->]|[_ ->]]; [left|right]; auto.
      + split; [lia|]. intros x [<-|Ix] Lx; [lia|]. specialize (M x Ix Lx). lia.
    - left. exists m. split; [right; auto|]. split; [auto|]. intros x [<-|Ix] Lx; [lia|auto].
    - left. exists a. split; [left; auto|]. split; [auto|]. intros x [<-|Ix] Lx; [lia|]. specialize (N x Ix). lia.
    - right. intros x [<-|Ix]; [lia|auto].
  Qed.

  Definition branch_list : list Z := map (fun r => offset mp (r_ip r)) (filter (counts mp) rs).
  Lemma branch_list_In b : In b branch_list <-> is_branch mp events b.
  Proof.
    unfold branch_list, is_branch, stays, taken. rewrite in_map_iff. setoid_rewrite filter_In. setoid_rewrite count_pos.
    split.
    - intros [r [<- [I C]]]. unfold counts in C. apply Bool.orb_true_iff in C. destruct C as [C|C].
      + left. exists r. auto.
      + right. exists (offset mp (r_target r)), r. auto.
    - intros [[r [I C]]|[t [r [I C]]]].
      + exists r. unfold counts. pose proof C as C'. unfold stays_at in C'. rewrite !Bool.andb_true_iff, !Z.eqb_eq in C'.
        assert (offset mp (r_ip r) = b) as -> by tauto. rewrite C. auto.
      + exists r. unfold counts. pose proof C as C'. unfold jumps in C'. rewrite !Bool.andb_true_iff, !Z.eqb_eq in C'.
        assert (offset mp (r_ip r) = b) as -> by tauto. assert (offset mp (r_target r) = t) as -> by tauto.
        rewrite C, Bool.orb_true_r. auto.
  Qed.

  Lemma target_list_In t :
    In t (map (fun r => offset mp (r_target r)) (filter (fun r => jumps_to mp (offset mp (r_target r)) r) rs))
    <-> is_target mp events t.
  Proof.
    unfold is_target, entries. rewrite in_map_iff, count_pos. setoid_rewrite filter_In. split.
    - intros [r [<- H]]. eauto.
    - intros [r [I C]]. exists r. pose proof C as C'. unfold jumps_to, jumps in C'.
      rewrite !Bool.andb_true_iff, !Z.eqb_eq in C'. assert (offset mp (r_target r) = t) as -> by tauto. auto.
  Qed.

  Lemma next_target t : is_target mp events t -> exists e, follows_to mp events t e.
  Proof.
    intros T. destruct (least (map (fun r => offset mp (r_target r))
        (filter (fun r => jumps_to mp (offset mp (r_target r)) r) rs)) (t + 1)) as [[m [I [L M]]]|N].
    - exists m. split; [exact T|]. left. split; [lia|]. split; [apply target_list_In; exact I|].
      intros t' T' L'. apply M; [apply target_list_In; exact T'|lia].
    - exists (t + 4096). split; [exact T|]. right. split; [|reflexivity].
      intros t' T'. apply target_list_In in T'. specialize (N _ T'). lia.
  Qed.

  Lemma follows_lt t e : follows_to mp events t e -> t < e /\ e mod 4 = 0.
  Proof.
    intros [T [[L [TE _]]|[_ ->]]].
    - split; [lia|]. apply (target_ok e TE).
    - split; [lia|]. destruct (target_ok t T) as [_ [A _]]. Z.div_mod_to_equations. lia.
  Qed.
End Ranges.
