(** C48: hot and cold parts of a function are emitted together. *)
From Verif Require Import Base ZMap SymbolModel SymbolSpec SymbolProofs AttribProofs SymbolProps
  ElideModel ElideProofs ElideProps AddrModel AddrProps SampleModel SampleProofs ProfileModel ProfileSpec
  ProfileProofs ProfileProps.

Lemma agg_count_spec p : GetAggregatedCount p = u64 (part_samples p).
Proof.
  unfold GetAggregatedCount, part_samples. destruct (pm_range p) as [|r rs].
  - rewrite sum_u64_spec. f_equal. induction (pm_addr p); cbn; auto. rewrite IHl. auto.
  - rewrite sum_u64_spec. generalize (r :: rs). induction l as [|e l IH]; cbn [map fold_right]; auto.
    unfold u64 at 1. rewrite <- Zplus_mod_idemp_r. fold (u64 (fold_right Z.add 0 (map (fun e => u64 (snd e * (1 + snd (fst e) - fst (fst e)))) l))).
    rewrite IH. unfold u64. rewrite Zplus_mod_idemp_r. rewrite Zplus_mod_idemp_l. f_equal. f_equal. f_equal. lia.
Qed.

Lemma part_count_spec orig ps n : part_count orig ps n = u64 (all_samples orig ps (orig n)).
Proof.
  unfold part_count, symbol_counts.
  assert (FL : forall ps acc, fold_left (fun acc e => madd name_eqb acc (orig (fst e), GetAggregatedCount (snd e))) ps acc
     = madd_all name_eqb (map (fun e : name * pmaps => (orig (fst e), GetAggregatedCount (snd e))) ps) acc).
  { clear. induction ps as [|e ps IH]; intros acc; cbn [fold_left map madd_all]; auto.
    rewrite IH. reflexivity. }
  rewrite FL. pose proof (cnt_madd_all_small name_eqb name_eqb_spec
     (map (fun e : name * pmaps => (orig (fst e), GetAggregatedCount (snd e))) ps) [] (orig n)
     ltac:(intros k; change (0 <= 0 < 2 ^ 64); lia)) as C.
  change (cnt name_eqb [] (orig n)) with 0 in C. unfold cnt in C. rewrite C.
  unfold all_samples, parts_of. generalize (orig n). clear. intros o.
  induction ps as [|e ps IH]; [reflexivity|]. cbn [map sum_at fold_right filter fst snd].
  assert (S : name_eqb o (orig (fst e)) = name_eqb (orig (fst e)) o).
  { destruct (name_eqb_spec o (orig (fst e))), (name_eqb_spec (orig (fst e)) o); congruence. }
  rewrite S. rewrite Z.add_0_l in *.
  fold (sum_at name_eqb o (map (fun e : name * pmaps => (orig (fst e), GetAggregatedCount (snd e))) ps)).
  destruct (name_eqb (orig (fst e)) o).
  - cbn [fold_right]. rewrite agg_count_spec. unfold u64 at 1. rewrite <- Zplus_mod_idemp_r.
    fold (u64 (sum_at name_eqb o (map (fun e : name * pmaps => (orig (fst e), GetAggregatedCount (snd e))) ps))).
    rewrite IH. unfold u64. rewrite Zplus_mod_idemp_r, Zplus_mod_idemp_l. reflexivity.
  - rewrite Z.add_0_l. exact IH.
Qed.

Lemma NoDup_rev_snoc {A} (l : list A) x : NoDup l -> ~ In x l -> NoDup (l ++ [x]).
Proof.
  intros N I. apply NoDup_rev in N. rewrite <- (rev_involutive (l ++ [x])). apply NoDup_rev.
  rewrite rev_app_distr. cbn. constructor; auto. rewrite <- in_rev. auto.
Qed.

Lemma agetN {V} (k : name) (v : V) l : NoDup (akeys l) -> In (k, v) l -> aget name_eqb k l = Some v.
Proof. apply aget_NoDup_In; exact name_eqb_spec. Qed.

  Lemma aset_fresh {V} (k : name) (v : V) l : ~ In k (akeys l) -> aset name_eqb k v l = l ++ [(k, v)].
  Proof.
    induction l as [|[k' v'] l IH]; intros N; cbn [aset app]; auto.
    cbn [akeys map In fst] in N. destruct (name_eqb_spec k k'); [subst; tauto|]. rewrite IH by tauto. reflexivity.
  Qed.


Section All.
  Variables (base : Z -> Z) (orig : name -> name) (symtab : list (Z * (name * Z)))
    (stack_of : Z -> list sinfo) (dup : sinfo -> Z) (use_lbr : bool).
  Let T := part_total base stack_of dup use_lbr.
  Let Proc := ProcessPerFunctionProfile base orig symtab stack_of dup use_lbr.

  Lemma total_u64 m x sx q : profile_ok m -> sm_find m x = Some sx -> 0 <= total_at sx q < 2 ^ 64.
  Proof. intros P F. exact (observe_range (OTotal q) sx (P _ _ F)). Qed.

  Lemma process_total n p m s : pmaps_ok p -> sm_find m n = Some s -> profile_ok m ->
    exists m', Proc n p m = Ok m' /\ sm_names m' = sm_names m /\ length (sm_heap m') = length (sm_heap m) /\
      profile_ok m' /\
      forall x sx, sm_find m x = Some sx -> exists sx', sm_find m' x = Some sx' /\ forall q,
        total_at sx' q = (total_at sx q + (if same_object m x n then T p q else 0)) mod 2 ^ 64.
  Proof.
    intros OK Hf POK.
    destruct (use_lbr && (match pm_range p with [] => true | _ => false end)) eqn:C.
    - apply andb_prop in C. destruct C as [C1 C2]. destruct (pm_range p) eqn:R; [|discriminate].
      unfold Proc, ProcessPerFunctionProfile. rewrite R, C1, touch_insts_all.
      destruct (add_all_spec base n (map (fun st => (st, (0, 1))) (snd (build_inst_map stack_of (pm_start p) (pm_end p)))) m s Hf (POK _ _ Hf))
        as (m1 & s1 & E1 & N1 & F1 & K1 & X1).
      { apply Forall_forall. intros e I. apply in_map_iff in I. destruct I as (st & <- & _). cbn. unfold is_u64. lia. }
      rewrite E1. cbn [obind].
      assert (O1 : all_ok m1).
      { intros x sx H. rewrite F1 in H. destruct (same_object m x n); [congruence|]. eapply POK; eauto. }
      assert (H1 : sm_find m1 n = Some s1) by (rewrite F1, (same_object_refl m n s Hf); auto).
      destruct (timestamp_spec n (pm_ts p) m1 s1 H1 O1) as (m2 & E2 & N2 & O2 & X2). rewrite E2. cbn [obind].
      exists m2. split; [reflexivity|]. split; [congruence|]. split.
      { apply add_all_len in E1. apply sm_update_len in E2. congruence. }
      split; [exact O2|]. intros x sx Fx.
      assert (TZ : forall q, T p q = 0). { intros q. unfold T, part_total. rewrite C1, R. reflexivity. }
      assert (G : exists sx1, sm_find m1 x = Some sx1 /\ forall q, total_at sx1 q = total_at sx q).
      { rewrite F1. destruct (same_object m x n) eqn:O; [|eauto]. exists s1. split; auto. intros q.
        rewrite (same_find _ _ _ _ O Fx) in Hf. injection Hf as <-. destruct (X1 q 0 []) as (_ & A & _). rewrite A.
        rewrite mfold_map', mfold_zero; [|intros; lia|].
        - rewrite Z.add_0_r. apply Z.mod_small. apply (total_u64 m x); auto.
        - intros st _. unfold q_total. cbn. destruct (st_in _ _ _); auto. }
      destruct G as (sx1 & G1 & G2). destruct (X2 _ _ G1) as (sx2 & G3 & G4). exists sx2. split; auto.
      intros q. destruct (G4 q 0 []) as (-> & _). rewrite G2, TZ.
      assert ((if same_object m x n then 0 else 0) = 0) as -> by (destruct (same_object _ _ _); auto).
      rewrite Z.add_0_r. symmetry. apply Z.mod_small. apply (total_u64 m x); auto.
    - assert (LBR : use_lbr = true -> pm_range p <> []).
      { intros U E. rewrite U, E in C. discriminate. }
      destruct (C21_counts base orig symtab stack_of dup use_lbr n p m s OK Hf POK LBR) as (m' & E & N & K & X).
      exists m'. split; [exact E|]. split; [exact N|]. split; [eapply process_len; eauto|]. split; [exact K|].
      intros x sx Fx. destruct (X x sx Fx) as (sx' & F' & Y). exists sx'. split; auto. intros q. specialize (Y q 0).
      destruct (same_object m x n).
      + destruct Y as (_ & -> & _). unfold T, part_total. rewrite C. reflexivity.
      + destruct Y as (_ & -> & _). rewrite Z.add_0_r. symmetry. apply Z.mod_small. apply (total_u64 m x); auto.
  Qed.

  Variable emit : Z -> bool.
  Definition emitted (all : profs) (n : name) : bool := emit (part_count orig all n).
  Definition gained (m : smap) (all : profs) (x : name) (q : path) (ps : profs) : Z :=
    fold_right (fun e acc => (if emitted all (fst e) && same_object m x (fst e) then T (snd e) q else 0) + acc) 0 ps.

  Lemma process_all_spec all ps : forall m,
    (forall n p, In (n, p) ps -> pmaps_ok p) ->
    (forall n p, In (n, p) ps -> emitted all n = true -> sm_find m n <> None) -> profile_ok m ->
    exists m', process_all base orig symtab stack_of dup use_lbr emit all ps m = Ok m' /\
      sm_names m' = sm_names m /\ length (sm_heap m') = length (sm_heap m) /\ profile_ok m' /\
      forall x sx, sm_find m x = Some sx -> exists sx', sm_find m' x = Some sx' /\ forall q,
        total_at sx' q = (total_at sx q + gained m all x q ps) mod 2 ^ 64.
  Proof.
    induction ps as [|[n p] ps IH]; intros m OK FD POK.
    - exists m. cbn [process_all]. repeat split; auto. intros x sx Fx. exists sx. split; auto. intros q. cbn.
      rewrite Z.add_0_r. symmetry. apply Z.mod_small. apply (total_u64 m x); auto.
    - cbn [process_all]. fold (emitted all n).
      assert (STEP : exists m1, (if emitted all n then Proc n p m else Ok m) = Ok m1 /\ sm_names m1 = sm_names m /\
        length (sm_heap m1) = length (sm_heap m) /\ profile_ok m1 /\
        forall x sx, sm_find m x = Some sx -> exists sx', sm_find m1 x = Some sx' /\ forall q,
        total_at sx' q = (total_at sx q + (if emitted all n && same_object m x n then T p q else 0)) mod 2 ^ 64).
      { destruct (emitted all n) eqn:EM.
        - assert (F : sm_find m n <> None) by (eapply FD; [left; reflexivity|exact EM]).
          destruct (sm_find m n) as [s|] eqn:Fn; [|congruence].
          destruct (process_total n p m s (OK n p (or_introl eq_refl)) Fn POK) as (m1 & A & B & C & D & E).
          exists m1. repeat split; auto.
        - exists m. repeat split; auto. intros x sx Fx. exists sx. split; auto. intros q. cbn [andb].
          rewrite Z.add_0_r. symmetry. apply Z.mod_small. apply (total_u64 m x); auto. }
      destruct STEP as (m1 & E1 & N1 & L1 & K1 & X1). fold Proc. rewrite E1. cbn [obind].
      destruct (IH m1) as (m2 & E2 & N2 & L2 & K2 & X2); auto.
      { intros; eapply OK; right; eauto. }
      { intros n' p' I EM. assert (F : sm_find m n' <> None) by (eapply FD; [right; eauto|exact EM]).
        destruct (sm_find m n') eqn:Fn; [|congruence]. destruct (X1 _ _ Fn) as (? & -> & _). congruence. }
      exists m2. split; [exact E2|]. split; [congruence|]. split; [congruence|]. split; auto.
      intros x sx Fx. destruct (X1 x sx Fx) as (sx1 & F1 & Y1). destruct (X2 x sx1 F1) as (sx2 & F2 & Y2).
      exists sx2. split; auto. intros q. rewrite Y2, Y1. rewrite Zplus_mod_idemp_l. f_equal.
      cbn [gained fold_right fst snd].
      assert (G : gained m1 all x q ps = gained m all x q ps).
      { unfold gained. clear -N1. induction ps as [|e ps IH]; auto. cbn [fold_right].
        rewrite IH, (same_object_names m m1) by auto. reflexivity. }
      rewrite G. unfold gained. lia.
  Qed.

End All.

Section Add.
  Variables (orig : name -> name) (emit : Z -> bool).
  Lemma add_symbols_spec all (ps : profs) : forall m, NoDup (akeys ps) ->
    (forall n, In n (akeys ps) -> ~ In n (akeys (sm_names m))) -> NoDup (akeys (sm_names m)) ->
    map snd (sm_names m) = seq 0 (length (sm_heap m)) -> Forall (fun s => s = sym0) (sm_heap m) ->
    let m' := fold_left (fun m e => if emit (part_count orig all (fst e)) then AddSymbol [] (fst e) m else m) ps m in
    akeys (sm_names m') = akeys (sm_names m) ++ filter (emitted orig emit all) (akeys ps) /\
    NoDup (akeys (sm_names m')) /\ map snd (sm_names m') = seq 0 (length (sm_heap m')) /\ Forall (fun s => s = sym0) (sm_heap m').
  Proof.
    induction ps as [|[n p] ps IH]; intros m ND DJ NM SQ HP m'; subst m'.
    - cbn. rewrite app_nil_r. auto.
    - change (akeys ((n, p) :: ps)) with (n :: akeys ps) in *. inversion ND as [|? ? NI ND']; subst.
      cbn [fold_left fst]. fold (emitted orig emit all n). cbn [filter].
      destruct (emitted orig emit all n) eqn:EM.
      + assert (FR : ~ In n (akeys (sm_names m))) by (apply DJ; left; auto).
        assert (AS : AddSymbol [] n m = SMap (sm_names m ++ [(n, length (sm_heap m))]) (sm_heap m ++ [sym0])).
        { unfold AddSymbol. rewrite (proj2 (aget_None_iff name_eqb name_eqb_spec n (sm_names m)) FR). cbn [fold_left].
          rewrite aset_fresh by auto. reflexivity. }
        rewrite AS.
        assert (AK : akeys (sm_names m ++ [(n, length (sm_heap m))]) = akeys (sm_names m) ++ [n]).
        { unfold akeys. rewrite map_app. reflexivity. }
        destruct (IH (SMap (sm_names m ++ [(n, length (sm_heap m))]) (sm_heap m ++ [sym0]))) as (A & B & C & D); cbn [sm_names sm_heap] in *; auto.
        * intros x I. rewrite AK, in_app_iff. intros [J|[J|[]]]; [eapply DJ; [right; eauto|auto]|]. subst. contradiction.
        * rewrite AK. apply NoDup_rev_snoc; auto.
        * rewrite map_app, app_length, SQ. cbn [map snd length]. rewrite Nat.add_1_r, seq_S. reflexivity.
        * apply Forall_app. auto.
        * split; [|auto]. rewrite A, AK, <- app_assoc. reflexivity.
      + apply IH; auto. intros x I. apply DJ. right; auto.
  Qed.
End Add.

(** C48: [ps] is what was collected per symbol (distinct names). Without symbol
    aliases, and if the suffix policy elides the collected names in one step (as
    the policies "all" and "none" always do), the profile has the function [n] exactly when [n] has a collected part and the samples of all
    its parts together exceed the threshold; then the totals of [n], along
    every inline path, are those of all its parts, none left out. *)
Theorem C48_parts_emitted_together :
  forall base symtab stack_of dup use_lbr pol threshold ps,
  let orig := GetOriginalName pol in
  (forall x, In x (akeys ps) -> orig (orig x) = orig x) -> NoDup (akeys ps) -> (forall n p, In (n, p) ps -> pmaps_ok p) ->
  exists m', ComputeProfile base orig symtab stack_of dup use_lbr (ShouldEmit threshold) (fun _ => []) ps (SMap [] []) = Ok m' /\
    forall n,
      (sm_find m' n <> None <->
         parts_of orig ps n <> [] /\ ShouldEmit threshold (all_samples orig ps n mod 2 ^ 64) = true) /\
      forall s', sm_find m' n = Some s' -> forall q,
        total_at s' q =
        fold_right (fun e acc => part_total base stack_of dup use_lbr (snd e) q + acc) 0 (parts_of orig ps n) mod 2 ^ 64.
Proof.
  intros base symtab stack_of dup use_lbr pol thr ps orig NS ND OK.
  set (emit := ShouldEmit thr). unfold ComputeProfile, add_symbols.
  destruct (add_symbols_spec orig emit ps ps (SMap [] []) ND) as (A1 & A2 & A3 & A4); cbn [sm_names sm_heap]; auto.
  { constructor. }
  set (m0 := fold_left _ ps (SMap [] [])) in *. cbn zeta in *. cbn [sm_names akeys map app] in A1.
  assert (FIND0 : forall n, In n (filter (emitted orig emit ps) (akeys ps)) -> sm_find m0 n = Some sym0).
  { intros n I. rewrite <- A1 in I. apply in_map_iff in I. destruct I as ([n' i] & E & I). cbn in E. subst n'.
    unfold sm_find. rewrite (agetN n i) by auto.
    assert (Hi : In i (seq 0 (length (sm_heap m0)))) by (rewrite <- A3; apply in_map_iff; exists (n, i); auto).
    apply in_seq in Hi. destruct (nth_error (sm_heap m0) i) eqn:E.
    - apply nth_error_In in E. rewrite Forall_forall in A4. rewrite (A4 _ E). auto.
    - apply nth_error_None in E. lia. }
  assert (POK0 : profile_ok m0).
  { intros x s F. unfold sm_find in F. destruct (aget _ _ _); [|discriminate]. apply nth_error_In in F.
    rewrite Forall_forall in A4. rewrite (A4 _ F). constructor; try (unfold is_u64; lia); try (split; constructor); try constructor.
    intros k c []. }
  destruct (process_all_spec base orig symtab stack_of dup use_lbr emit ps ps m0 OK) as (m1 & E1 & N1 & L1 & K1 & X1); auto.
  { intros n p I EM. rewrite (FIND0 n); [discriminate|]. apply filter_In. split; auto. apply in_map_iff. exists (n, p); auto. }
  rewrite E1. cbn [obind].
  assert (SOK : smap_ok m1).
  { split; [rewrite N1; auto|]. split.
    - apply Forall_forall. intros s I. apply In_nth_error in I. destruct I as [i I].
      assert (Hi : (i < length (sm_heap m1))%nat) by (apply nth_error_Some; congruence). rewrite L1 in Hi.
      assert (J : In i (map snd (sm_names m0))) by (rewrite A3; apply in_seq; lia).
      apply in_map_iff in J. destruct J as ([n j] & E & J). cbn in E. subst j.
      apply (K1 n). unfold sm_find. rewrite N1. rewrite (agetN n i) by auto. auto.
    - rewrite N1, L1. apply Forall_forall. intros [n i] I. cbn [snd]. apply in_map with (f := snd) in I. cbn [snd] in I.
      rewrite A3 in I. apply in_seq in I. lia. }
  assert (UNS : unshared m1) by (unfold unshared; rewrite N1, A3; apply seq_NoDup).
  destruct (C12_elision_merges_when_idempotent orig m1) as (m' & E2 & _ & PR & SUM); auto.
  { intros x I. apply NS. rewrite N1, A1 in I. apply filter_In in I. apply I. }
  exists m'. split; [exact E2|].
  rewrite N1, A1 in PR, SUM.
  assert (EMIT : forall x, emitted orig emit ps x = emit (all_samples orig ps (orig x) mod 2 ^ 64)).
  { intros x. unfold emitted. rewrite part_count_spec. reflexivity. }
  intros n. split.
  - rewrite PR. split.
    + intros (x & I & <-). apply filter_In in I. destruct I as [I EM]. rewrite EMIT in EM. split; auto.
      apply in_map_iff in I. destruct I as ([x' p] & E & I). cbn in E. subst x'. intros F.
      assert (In (x, p) (parts_of orig ps (orig x))).
      { unfold parts_of. apply filter_In. split; auto. cbn [fst]. destruct (name_eqb_spec (orig x) (orig x)); congruence. }
      rewrite F in H. destruct H.
    + intros [F EM]. destruct (parts_of orig ps n) as [|[x p] r] eqn:E; [congruence|].
      assert (I : In (x, p) (parts_of orig ps n)) by (rewrite E; left; auto).
      apply filter_In in I. destruct I as [I E']. cbn [fst] in E'. destruct (name_eqb_spec (orig x) n) as [Ox|]; [|discriminate].
      exists x. split; auto. apply filter_In. split; [apply in_map_iff; exists (x, p); auto|]. rewrite EMIT, Ox. exact EM.
  - intros s' F q. specialize (SUM n s' F (OTotal q)). cbn [observe] in SUM. rewrite SUM. clear SUM.
    assert (EMn : emit (all_samples orig ps n mod 2 ^ 64) = true).
    { destruct (proj1 (PR n)) as (x & I & Ox); [congruence|]. apply filter_In in I. rewrite EMIT, Ox in I. apply I. }
    (* every emitted part gained exactly its own total *)
    assert (G : forall x, In x (akeys ps) -> emitted orig emit ps x = true ->
              exists p, In (x, p) ps /\ (match sm_find m1 x with Some s => observe (OTotal q) s | None => 0 end)
                 = part_total base stack_of dup use_lbr p q mod 2 ^ 64).
    { intros x I EM. pose proof (FIND0 x ltac:(apply filter_In; auto)) as F0.
      destruct (X1 x sym0 F0) as (sx & Fx & Tx). rewrite Fx. cbn [observe]. rewrite Tx.
      apply in_map_iff in I. destruct I as ([x' p] & E & I). cbn in E. subst x'. exists p. split; auto.
      assert (Z0 : total_at sym0 q = 0) by (destruct q; reflexivity). rewrite Z0, Z.add_0_l. f_equal.
      assert (SO : forall y py, In (y, py) ps -> emitted orig emit ps y = true -> same_object m0 x y = name_eqb x y).
      { intros y py Iy EMy. unfold same_object.
        assert (Ky : forall z pz, In (z, pz) ps -> emitted orig emit ps z = true -> exists i, In (z, i) (sm_names m0)).
        { intros z pz Iz EMz. assert (J : In z (akeys (sm_names m0))).
          { rewrite A1. apply filter_In. split; auto. apply in_map_iff. exists (z, pz); auto. }
          apply in_map_iff in J. destruct J as ([z' i] & E & J). cbn in E. subst z'. eauto. }
        destruct (Ky x p I EM) as [i Hi]. destruct (Ky y py Iy EMy) as [j Hj].
        rewrite (agetN x i), (agetN y j) by auto.
        destruct (name_eqb_spec x y) as [->|NE].
        - rewrite (proj2 (Nat.eqb_eq i j)); auto.
          pose proof (agetN y i _ A2 Hi). pose proof (agetN y j _ A2 Hj). congruence.
        - apply Nat.eqb_neq. intros ->. apply NE. eapply (nodup_snd_inj (sm_names m0)); eauto. rewrite A3. apply seq_NoDup. }
      unfold gained.
      assert (H : forall L, (forall y py, In (y, py) L -> In (y, py) ps) -> NoDup (akeys L) ->
        fold_right (fun e acc => (if emitted orig emit ps (fst e) && same_object m0 x (fst e) then part_total base stack_of dup use_lbr (snd e) q else 0) + acc) 0 L
        = if in_dec (list_eq_dec Z.eq_dec) x (akeys L) then part_total base stack_of dup use_lbr p q else 0).
      { induction L as [|[y py] L IH]; intros SUB NL; [reflexivity|].
        change (akeys ((y, py) :: L)) with (y :: akeys L) in *. inversion NL; subst.
        cbn [fold_right fst snd]. rewrite IH; auto; [|intros; apply SUB; right; auto].
        destruct (emitted orig emit ps y) eqn:EMy.
        - rewrite (SO y py) by (auto; apply SUB; left; auto). cbn [andb].
          destruct (name_eqb_spec x y) as [->|NE].
          + assert (py = p).
            { pose proof (agetN y py ps ND (SUB _ _ (or_introl eq_refl))). pose proof (agetN y p ps ND I). congruence. }
            subst py. destruct (in_dec (list_eq_dec Z.eq_dec) y (y :: akeys L)) as [_|N]; [|exfalso; apply N; left; auto].
            destruct (in_dec (list_eq_dec Z.eq_dec) y (akeys L)); [contradiction|]. lia.
          + destruct (in_dec (list_eq_dec Z.eq_dec) x (akeys L)) as [J|J], (in_dec (list_eq_dec Z.eq_dec) x (y :: akeys L)) as [J'|J']; try lia.
            * exfalso; apply J'; right; auto.
            * destruct J' as [->|J']; [congruence|contradiction].
        - cbn [andb]. destruct (name_eqb_spec x y) as [->|NE]; [congruence|].
          destruct (in_dec (list_eq_dec Z.eq_dec) x (akeys L)) as [J|J], (in_dec (list_eq_dec Z.eq_dec) x (y :: akeys L)) as [J'|J']; try lia.
          + exfalso; apply J'; right; auto.
          + destruct J' as [->|J']; [congruence|contradiction]. }
      rewrite H by auto. destruct (in_dec (list_eq_dec Z.eq_dec) x (akeys ps)) as [_|N]; auto.
      exfalso. apply N. apply in_map_iff. exists (x, p); auto. }
    unfold total_over, parts_of.
    assert (H : forall L, (forall y py, In (y, py) L -> In (y, py) ps) ->
      fold_right Z.add 0 (map (fun x => match sm_find m1 x with Some s => observe (OTotal q) s | None => 0 end)
         (filter (fun x => name_eqb (orig x) n) (filter (emitted orig emit ps) (akeys L)))) mod 2 ^ 64
      = fold_right (fun e acc => part_total base stack_of dup use_lbr (snd e) q + acc) 0 (filter (fun e => name_eqb (orig (fst e)) n) L) mod 2 ^ 64).
    { induction L as [|[y py] L IH]; intros SUB; [reflexivity|].
      change (akeys ((y, py) :: L)) with (y :: akeys L). cbn [filter fst].
      specialize (IH ltac:(intros; apply SUB; right; auto)).
      destruct (emitted orig emit ps y) eqn:EMy; cbn [filter].
      - destruct (name_eqb (orig y) n); [|exact IH]. cbn [map fold_right snd].
        assert (Iy : In (y, py) ps) by (apply SUB; left; auto).
        destruct (G y) as (p & Ip & ->); auto; [apply in_map_iff; exists (y, py); auto|].
        assert (p = py) by (pose proof (agetN y py ps ND Iy); pose proof (agetN y p ps ND Ip); congruence). subst p.
        rewrite Zplus_mod_idemp_l, <- Zplus_mod_idemp_r, IH, Zplus_mod_idemp_r. reflexivity.
      - destruct (name_eqb_spec (orig y) n) as [Oy|]; [|exact IH]. exfalso. rewrite EMIT, Oy in EMy. congruence. }
    apply H; auto.
Qed.
Print Assumptions C48_parts_emitted_together.

(** The parts "f" (3 samples) and "f.cold" (4 samples) of one function: with
    threshold 6 neither alone is hot enough, together they are emitted; "g"
    (2 samples) is not. *)
Definition nm_f_cold : name := [102; 46; 99; 111; 108; 100].
Definition ex_parts : profs :=
  [(ex_f, {| pm_start := 16; pm_end := 20; pm_ts := 0; pm_addr := [(16, 3)]; pm_range := []; pm_branch := [] |});
   (nm_f_cold, {| pm_start := 64; pm_end := 68; pm_ts := 0; pm_addr := [(65, 4)]; pm_range := []; pm_branch := [] |});
   (ex_g, {| pm_start := 32; pm_end := 36; pm_ts := 0; pm_addr := [(33, 2)]; pm_range := []; pm_branch := [] |})].
Lemma all_none_idempotent pol x : pol <> ElideSelected ->
  GetOriginalName pol (GetOriginalName pol x) = GetOriginalName pol x.
Proof. intros N. destruct pol; [apply orig_all_idem|congruence|reflexivity]. Qed.
Example C48_nonvacuous :
  (forall pol x, In x (akeys ex_parts) -> GetOriginalName pol (GetOriginalName pol x) = GetOriginalName pol x) /\
  NoDup (akeys ex_parts) /\ (forall n p, In (n, p) ex_parts -> pmaps_ok p) /\
  exists m' s, ComputeProfile (fun d => d) (GetOriginalName ElideAll) ex_tab ex_stack (fun _ => 1) false (ShouldEmit 6)
    (fun _ => []) ex_parts (SMap [] []) = Ok m' /\
    sm_find m' ex_f = Some s /\ total_at s [] = 7 /\ sm_find m' ex_g = None /\ sm_find m' nm_f_cold = None.
Proof.
  split; [|split; [|split]].
  - intros [] x [<-|[<-|[<-|[]]]]; vm_compute; reflexivity.
  - repeat constructor; cbn; intuition discriminate.
  - intros n p [E|[E|[E|[]]]]; injection E as <- <-; unfold pmaps_ok; cbn; repeat split; try lia;
      repeat constructor; unfold is_u64; cbn; try lia; auto.
  - do 2 eexists. repeat (split; [vm_compute; reflexivity|]). vm_compute; reflexivity.
Qed.

(** Sample counts of 2^63 and more turn negative in ShouldEmit (int64_t
    parameter): such a function, however hot, is dropped. *)
Theorem C48_huge_count_dropped_refuted : forall threshold count,
  0 <= threshold -> 2 ^ 63 <= count < 2 ^ 64 -> ShouldEmit threshold count = false.
Proof.
  intros t c T C. unfold ShouldEmit. assert (c <? 2 ^ 63 = false) as -> by lia. lia.
Qed.
Print Assumptions C48_huge_count_dropped_refuted.
