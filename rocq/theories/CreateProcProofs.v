(** Proofs for C64, part two: counts and entry counts of all functions together. *)
From Verif Require Import Base ZMap SymbolModel SymbolSpec SymbolProofs AttribProofs SymbolProps
  ElideModel ElideProofs ElideProps AddrModel AddrProps SampleModel SampleProofs ProfileModel ProfileSpec
  ProfileProofs ProfileProps PartsProps.
From Coq Require Import Permutation.

Lemma max_over_nn f l : 0 <= max_over f l.
Proof. unfold max_over. induction l as [|a l IH]; cbn [fold_right]; [reflexivity|]. etransitivity; [exact IH|apply Z.le_max_r]. Qed.

Section All.
  Variables (base : Z -> Z) (orig : name -> name) (symtab : list (Z * (name * Z)))
    (stack_of : Z -> list sinfo) (dup : sinfo -> Z) (use_lbr : bool).
  Let Proc := ProcessPerFunctionProfile base orig symtab stack_of dup use_lbr.

  Definition part_max (p : pmaps) (q : path) (l : Z) : Z :=
    max_over (fun a => if located base stack_of a q l then weight stack_of dup use_lbr p a else 0) (fn_addresses p).
  Definition idle (p : pmaps) : bool := use_lbr && match pm_range p with [] => true | _ => false end.
  Definition part_calls (m : smap) (x : name) (p : pmaps) : Z :=
    if idle p then 0 else wsum (fun b => from_inside p b && enters symtab m x b) (pm_branch p).

  Lemma max_over_zero f l : (forall a, In a l -> f a = 0) -> max_over f l = 0.
  Proof.
    induction l as [|a l IH]; intros H; [reflexivity|]. unfold max_over in *. cbn [fold_right]. rewrite (H a) by (left; auto).
    rewrite IH by (intros; apply H; right; auto). reflexivity.
  Qed.
  Lemma count_u64 m x sx q l : profile_ok m -> sm_find m x = Some sx -> 0 <= count_at sx q l < 2 ^ 64.
  Proof. intros P F. exact (observe_range (OCount q l) sx (P _ _ F)). Qed.
  Lemma head_u64 m x sx q : profile_ok m -> sm_find m x = Some sx -> 0 <= head_at sx q < 2 ^ 64.
  Proof. intros P F. exact (observe_range (OHead q) sx (P _ _ F)). Qed.

  Lemma process_obs n p m s : pmaps_ok p -> sm_find m n = Some s -> profile_ok m ->
    exists m', Proc n p m = Ok m' /\ sm_names m' = sm_names m /\ length (sm_heap m') = length (sm_heap m) /\
      profile_ok m' /\
      forall x sx, sm_find m x = Some sx -> exists sx', sm_find m' x = Some sx' /\
        (forall q l, count_at sx' q l = Z.max (count_at sx q l) (if same_object m x n then part_max p q l else 0)) /\
        head_at sx' [] = (head_at sx [] + part_calls m x p) mod 2 ^ 64.
  Proof.
    intros OK Hf POK. unfold part_calls. destruct (idle p) eqn:C.
    - unfold idle in C. apply andb_prop in C. destruct C as [C1 C2]. destruct (pm_range p) eqn:R; [|discriminate].
      unfold Proc, ProcessPerFunctionProfile. rewrite R, C1, touch_insts_all.
      destruct (add_all_spec base n (map (fun st => (st, (0, 1))) (snd (build_inst_map stack_of (pm_start p) (pm_end p)))) m s Hf (POK _ _ Hf))
        as (m1 & s1 & E1 & N1 & F1 & K1 & X1).
      { apply Forall_forall. intros e I. apply in_map_iff in I. destruct I as (st & <- & _). cbn. unfold is_u64. lia. }
      rewrite E1. cbn [obind].
      assert (O1 : all_ok m1).
      { intros x sx H. rewrite F1 in H. destruct (same_object m x n); [congruence|]. eapply POK; eauto. }
      assert (H1 : sm_find m1 n = Some s1) by (rewrite F1, (same_object_refl m n s Hf); auto).
      destruct (timestamp_spec n (pm_ts p) m1 s1 H1 O1) as (m2 & E2 & N2 & O2 & X2). rewrite E2. cbn [obind].
      exists m2. split; [reflexivity|]. split; [congruence|]. split.
      { apply add_all_len in E1. apply sm_update_len in E2. congruence. }
      split; [exact O2|]. intros x sx Fx.
      assert (TZ : forall q l, part_max p q l = 0).
      { intros q l. unfold part_max. apply max_over_zero. intros a _. destruct (located _ _ _ _ _); auto.
        unfold weight, exec_count. rewrite C1, R. destruct (stack_of a); reflexivity. }
      assert (G : exists sx1, sm_find m1 x = Some sx1 /\ (forall q l, count_at sx1 q l = count_at sx q l) /\ head_at sx1 [] = head_at sx []).
      { rewrite F1. destruct (same_object m x n) eqn:O; [|eauto]. exists s1. split; auto.
        rewrite (same_find _ _ _ _ O Fx) in Hf. injection Hf as <-. split.
        - intros q l. destruct (X1 q l []) as (_ & _ & _ & _ & A & _). rewrite A.
          rewrite mfold_map', mfold_zero; [|intros; lia|].
          + pose proof (count_u64 m x sx q l POK Fx). lia.
          + intros st _. unfold q_count. cbn [fst snd]. match goal with |- (if ?b then _ else _) = _ => destruct b end; auto.
        - destruct (X1 [] 0 []) as (_ & _ & A & _). exact A. }
      destruct G as (sx1 & G1 & G2 & G3). destruct (X2 _ _ G1) as (sx2 & G4 & G5). exists sx2. split; auto. split.
      + intros q l. destruct (G5 q l []) as (_ & _ & -> & _). rewrite G2, TZ.
        pose proof (count_u64 m x sx q l POK Fx). destruct (same_object m x n); lia.
      + destruct (G5 [] 0 []) as (_ & -> & _). rewrite G3, Z.add_0_r. symmetry. apply Z.mod_small. exact (head_u64 m x sx [] POK Fx).
    - assert (LBR : use_lbr = true -> pm_range p <> []).
      { intros U E. unfold idle in C. rewrite U, E in C. discriminate. }
      destruct (C21_counts base orig symtab stack_of dup use_lbr n p m s OK Hf POK LBR) as (m' & E & N & K & X).
      destruct (C21_entry_counts base orig symtab stack_of dup use_lbr n p m s OK Hf POK LBR) as (m'' & E' & X').
      assert (m'' = m') by congruence. subst m''.
      exists m'. split; [exact E|]. split; [exact N|]. split; [eapply process_len; eauto|]. split; [exact K|].
      intros x sx Fx. destruct (X x sx Fx) as (sx' & F' & Y). destruct (X' x sx Fx) as (sx'' & F'' & Y').
      assert (sx'' = sx') by congruence. subst sx''. exists sx'. split; auto. split.
      + intros q l. specialize (Y q l). destruct (same_object m x n).
        * destruct Y as (-> & _). reflexivity.
        * destruct Y as (-> & _). pose proof (count_u64 m x sx q l POK Fx). lia.
      + exact Y'.
  Qed.

  Variable emit : Z -> bool.
  Notation emitted := (PartsProps.emitted orig emit).
  Definition all_max (m : smap) (all : profs) (x : name) (q : path) (l : Z) (ps : profs) : Z :=
    fold_right (fun e acc => Z.max (if emitted all (fst e) && same_object m x (fst e) then part_max (snd e) q l else 0) acc) 0 ps.
  Definition all_calls (m : smap) (all : profs) (x : name) (ps : profs) : Z :=
    fold_right (fun e acc => (if emitted all (fst e) then part_calls m x (snd e) else 0) + acc) 0 ps.

  Lemma enters_names m m1 x b : sm_names m1 = sm_names m -> enters symtab m1 x b = enters symtab m x b.
  Proof. intros N. unfold enters. destruct (GetSymbolNameByStartAddr symtab (snd b)); auto. apply same_object_names; auto. Qed.
  Lemma wsum_ext {K} (P Q : K -> bool) l : (forall e, In e l -> P (fst e) = Q (fst e)) -> wsum P l = wsum Q l.
  Proof.
    intros H. unfold wsum. induction l as [|e l IH]; auto. cbn [fold_right]. rewrite IH by (intros; apply H; right; auto).
    rewrite (H e) by (left; auto). reflexivity.
  Qed.
  Lemma part_calls_names m m1 x p : sm_names m1 = sm_names m -> part_calls m1 x p = part_calls m x p.
  Proof. intros N. unfold part_calls. destruct (idle p); auto. apply wsum_ext. intros e _. rewrite (enters_names m m1) by auto. auto. Qed.

  Lemma process_all_obs all ps : forall m,
    (forall n p, In (n, p) ps -> pmaps_ok p) ->
    (forall n p, In (n, p) ps -> emitted all n = true -> sm_find m n <> None) -> profile_ok m ->
    exists m', process_all base orig symtab stack_of dup use_lbr emit all ps m = Ok m' /\
      sm_names m' = sm_names m /\ length (sm_heap m') = length (sm_heap m) /\ profile_ok m' /\
      forall x sx, sm_find m x = Some sx -> exists sx', sm_find m' x = Some sx' /\
        (forall q l, count_at sx' q l = Z.max (count_at sx q l) (all_max m all x q l ps)) /\
        head_at sx' [] = (head_at sx [] + all_calls m all x ps) mod 2 ^ 64.
  Proof.
    induction ps as [|[n p] ps IH]; intros m OK FD POK.
    - exists m. cbn [process_all]. split; [reflexivity|]. split; [reflexivity|]. split; [reflexivity|]. split; [exact POK|].
      intros x sx Fx. exists sx. split; auto. split.
      + intros q l. cbn. pose proof (count_u64 m x sx q l POK Fx). lia.
      + cbn. rewrite Z.add_0_r. symmetry. apply Z.mod_small. exact (head_u64 m x sx [] POK Fx).
    - cbn [process_all]. fold (emitted all n).
      assert (ST : exists m1, (if emitted all n then Proc n p m else Ok m) = Ok m1 /\ sm_names m1 = sm_names m /\
         length (sm_heap m1) = length (sm_heap m) /\ profile_ok m1 /\
         forall x sx, sm_find m x = Some sx -> exists sx', sm_find m1 x = Some sx' /\
          (forall q l, count_at sx' q l = Z.max (count_at sx q l) (if emitted all n && same_object m x n then part_max p q l else 0)) /\
          head_at sx' [] = (head_at sx [] + (if emitted all n then part_calls m x p else 0)) mod 2 ^ 64).
      { destruct (emitted all n) eqn:EM.
        - assert (F : sm_find m n <> None) by (eapply FD; [left; eauto|exact EM]).
          destruct (sm_find m n) as [s|] eqn:Fn; [|congruence].
          exact (process_obs n p m s (OK n p (or_introl eq_refl)) Fn POK).
        - exists m. split; [reflexivity|]. split; [reflexivity|]. split; [reflexivity|]. split; [exact POK|].
          intros x sx Fx. exists sx. split; auto. split.
          + intros q l. cbn [andb]. pose proof (count_u64 m x sx q l POK Fx). lia.
          + rewrite Z.add_0_r. symmetry. apply Z.mod_small. exact (head_u64 m x sx [] POK Fx). }
      unfold Proc in ST. unfold PartsProps.emitted in ST at 1. unfold PartsProps.emitted at 1.
      destruct ST as (m1 & -> & N1 & L1 & K1 & X1). cbn [obind].
      destruct (IH m1) as (m2 & E2 & N2 & L2 & K2 & X2); auto.
      { intros; eapply OK; right; eauto. }
      { intros n' p' I EM. assert (F : sm_find m n' <> None) by (eapply FD; [right; eauto|exact EM]).
        destruct (sm_find m n') eqn:Fn; [|congruence]. destruct (X1 _ _ Fn) as (? & -> & _). congruence. }
      exists m2. split; [exact E2|]. split; [congruence|]. split; [congruence|]. split; auto.
      intros x sx Fx. destruct (X1 x sx Fx) as (sx1 & F1 & Y1 & H1). destruct (X2 x sx1 F1) as (sx2 & F2 & Y2 & H2).
      exists sx2. split; auto. split.
      + intros q l. rewrite Y2, Y1.
        assert (G : all_max m1 all x q l ps = all_max m all x q l ps).
        { unfold all_max. clear -N1. induction ps as [|e ps IH]; auto. cbn [fold_right].
          rewrite IH, (same_object_names m m1) by auto. reflexivity. }
        rewrite G. cbn [all_max fold_right fst snd]. fold (all_max m all x q l ps). lia.
      + rewrite H2, H1, Zplus_mod_idemp_l. f_equal.
        assert (G : all_calls m1 all x ps = all_calls m all x ps).
        { unfold all_calls. clear -N1. induction ps as [|e ps IH]; auto. cbn [fold_right].
          rewrite IH, (part_calls_names m m1) by auto. reflexivity. }
        rewrite G. cbn [all_calls fold_right fst snd]. fold (all_calls m all x ps). lia.
  Qed.
End All.

Section Compute.
  Variables (base : Z -> Z) (orig : name -> name) (symtab : list (Z * (name * Z)))
    (stack_of : Z -> list sinfo) (dup : sinfo -> Z) (use_lbr : bool) (emit : Z -> bool).
  Variable ps : profs.
  Hypothesis NS : forall x, In x (akeys ps) -> orig (orig x) = orig x.
  Hypothesis ND : NoDup (akeys ps).
  Hypothesis OK : forall n p, In (n, p) ps -> pmaps_ok p.
  Notation emitted := (PartsProps.emitted orig emit).
  Notation keys := (filter (emitted ps) (akeys ps)).

  (** calls of the part [p] to the entry of a part of [n] *)
  Definition calls_to (n : name) (p : pmaps) : Z :=
    if idle use_lbr p then 0 else
    wsum (fun b => from_inside p b &&
      match GetSymbolNameByStartAddr symtab (snd b) with
      | Some callee => existsb (fun x => name_eqb x callee) (akeys ps) && name_eqb (orig callee) n
      | None => false end) (pm_branch p).
  Definition all_calls_to (n : name) : Z :=
    fold_right (fun e acc => (if emitted ps (fst e) then calls_to n (snd e) else 0) + acc) 0 ps.

  Lemma compute_setup :
    exists m1, process_all base orig symtab stack_of dup use_lbr emit ps ps (add_symbols orig emit (fun _ => []) ps (SMap [] [])) = Ok m1 /\
      akeys (sm_names m1) = keys /\ smap_ok m1 /\ ElideProofs.unshared m1 /\
      forall x, In x keys -> exists p sx, In (x, p) ps /\ sm_find m1 x = Some sx /\
        (forall q l, count_at sx q l = part_max base stack_of dup use_lbr p q l) /\
        head_at sx [] = fold_right (fun e acc => (if emitted ps (fst e) then
           if idle use_lbr (snd e) then 0 else
           wsum (fun b => from_inside (snd e) b && match GetSymbolNameByStartAddr symtab (snd b) with
              | Some callee => existsb (fun y => name_eqb y callee) keys && name_eqb x callee | None => false end) (pm_branch (snd e))
           else 0) + acc) 0 ps mod 2 ^ 64.
  Proof.
    unfold add_symbols.
    destruct (add_symbols_spec orig emit ps ps (SMap [] []) ND) as (A1 & A2 & A3 & A4); cbn [sm_names sm_heap]; auto.
    { constructor. }
    set (m0 := fold_left _ ps (SMap [] [])) in *. cbn zeta in *. cbn [sm_names akeys map app] in A1.
    assert (FIND0 : forall n, In n keys -> sm_find m0 n = Some sym0).
    { intros n I. rewrite <- A1 in I. apply in_map_iff in I. destruct I as ([n' i] & E & I). cbn in E. subst n'.
      unfold sm_find. rewrite (agetN n i) by auto.
      assert (Hi : In i (seq 0 (length (sm_heap m0)))) by (rewrite <- A3; apply in_map_iff; exists (n, i); auto).
      apply in_seq in Hi. destruct (nth_error (sm_heap m0) i) eqn:E.
      - apply nth_error_In in E. rewrite Forall_forall in A4. rewrite (A4 _ E). auto.
      - apply nth_error_None in E. lia. }
    assert (POK0 : profile_ok m0).
    { intros x s F. unfold sm_find in F. destruct (aget _ _ _); [|discriminate]. apply nth_error_In in F.
      rewrite Forall_forall in A4. rewrite (A4 _ F). constructor; try (unfold is_u64; lia); try (split; constructor); try constructor.
      intros k c []. }
    destruct (process_all_obs base orig symtab stack_of dup use_lbr emit ps ps m0 OK) as (m1 & E1 & N1 & L1 & K1 & X1); auto.
    { intros n p I EM. rewrite (FIND0 n); [discriminate|]. apply filter_In. split; auto. apply in_map_iff. exists (n, p); auto. }
    exists m1. split; [exact E1|]. split; [rewrite N1; exact A1|].
    split.
    { split; [rewrite N1; auto|]. split.
      - apply Forall_forall. intros s I. apply In_nth_error in I. destruct I as [i I].
        assert (Hi : (i < length (sm_heap m1))%nat) by (apply nth_error_Some; congruence). rewrite L1 in Hi.
        assert (J : In i (map snd (sm_names m0))) by (rewrite A3; apply in_seq; lia).
        apply in_map_iff in J. destruct J as ([n j] & E & J). cbn in E. subst j.
        apply (K1 n). unfold sm_find. rewrite N1. rewrite (agetN n i) by auto. auto.
      - rewrite N1, L1. apply Forall_forall. intros [n i] I. cbn [snd]. apply in_map with (f := snd) in I. cbn [snd] in I.
        rewrite A3 in I. apply in_seq in I. lia. }
    split; [unfold ElideProofs.unshared; rewrite N1, A3; apply seq_NoDup|].
    assert (KI : forall y, In y keys <-> exists i, In (y, i) (sm_names m0)).
    { intros y. rewrite <- A1. split.
      - intros J. apply in_map_iff in J. destruct J as ([z' i] & E & J). cbn in E. subst z'. eauto.
      - intros (i & J). apply in_map_iff. exists (y, i). auto. }
    assert (SO : forall x y, In x keys -> same_object m0 x y = existsb (fun z => name_eqb z y) keys && name_eqb x y).
    { intros x y Ix. destruct (proj1 (KI x) Ix) as [i Hi]. unfold same_object. rewrite (agetN x i) by auto.
      destruct (existsb (fun z => name_eqb z y) keys) eqn:EX.
      - apply existsb_exists in EX. destruct EX as (z & Iz & Ez). destruct (name_eqb_spec z y); [|discriminate]. subst z.
        destruct (proj1 (KI y) Iz) as [j Hj]. rewrite (agetN y j) by auto. cbn [andb].
        destruct (name_eqb_spec x y) as [->|NE].
        + rewrite (proj2 (Nat.eqb_eq i j)); auto. pose proof (agetN y i _ A2 Hi). pose proof (agetN y j _ A2 Hj). congruence.
        + apply Nat.eqb_neq. intros ->. apply NE. eapply (nodup_snd_inj (sm_names m0)); eauto. rewrite A3. apply seq_NoDup.
      - destruct (aget name_eqb y (sm_names m0)) eqn:E; auto. exfalso.
        apply (aget_In name_eqb name_eqb_spec) in E.
        assert (In y keys) by (apply KI; eauto).
        assert (existsb (fun z => name_eqb z y) keys = true).
        { apply existsb_exists. exists y. split; auto. destruct (name_eqb_spec y y); congruence. }
        congruence. }
    intros x Ix. destruct (X1 x sym0 (FIND0 x Ix)) as (sx & Fx & Cx & Hx).
    pose proof Ix as Ix'. apply filter_In in Ix'. destruct Ix' as [Ik EM].
    pose proof Ik as Ik'. apply in_map_iff in Ik'. destruct Ik' as ([x' p] & E & Ip). cbn in E. subst x'.
    exists p, sx. split; [exact Ip|]. split; [exact Fx|]. split.
    - intros q l. rewrite Cx. assert (Z0 : count_at sym0 q l = 0) by (destruct q; reflexivity). rewrite Z0.
      assert (PM : forall p, 0 <= part_max base stack_of dup use_lbr p q l).
      { intros p'. unfold part_max. apply max_over_nn. }
      assert (H : forall L, (forall y py, In (y, py) L -> In (y, py) ps) ->
        fold_right (fun e acc => Z.max (if emitted ps (fst e) && same_object m0 x (fst e) then part_max base stack_of dup use_lbr (snd e) q l else 0) acc) 0 L
        = if in_dec (list_eq_dec Z.eq_dec) x (akeys L) then part_max base stack_of dup use_lbr p q l else 0).
      { induction L as [|[y py] L IH]; intros SUB; [reflexivity|].
        change (akeys ((y, py) :: L)) with (y :: akeys L) in *.
        cbn [fold_right fst snd]. rewrite IH; auto; [|intros; apply SUB; right; auto]. rewrite SO by auto.
        assert (Iy : In y (akeys ps)) by (apply in_map_iff; exists (y, py); split; auto; apply SUB; left; auto).
        destruct (name_eqb_spec x y) as [<-|NE].
        - assert (EX : existsb (fun z => name_eqb z x) keys = true).
          { apply existsb_exists. exists x. split; auto. destruct (name_eqb_spec x x); congruence. }
          rewrite EM, EX. cbn [andb].
          assert (py = p).
          { pose proof (agetN x py ps ND (SUB _ _ (or_introl eq_refl))). pose proof (agetN x p ps ND Ip). congruence. }
          subst py. specialize (PM p).
          destruct (in_dec (list_eq_dec Z.eq_dec) x (x :: akeys L)) as [_|N]; [|exfalso; apply N; left; auto].
          destruct (in_dec (list_eq_dec Z.eq_dec) x (akeys L)); lia.
        - rewrite !andb_false_r. specialize (PM p).
          destruct (in_dec (list_eq_dec Z.eq_dec) x (akeys L)) as [J|J], (in_dec (list_eq_dec Z.eq_dec) x (y :: akeys L)) as [J'|J']; try lia.
          + exfalso; apply J'; right; auto.
          + destruct J' as [->|J']; [congruence|contradiction]. }
      unfold all_max. rewrite H by auto. specialize (PM p).
      destruct (in_dec (list_eq_dec Z.eq_dec) x (akeys ps)); [lia|contradiction].
    - rewrite Hx. change (head_at sym0 []) with 0. rewrite Z.add_0_l. f_equal. unfold all_calls, part_calls.
      clearbody m0. clear -SO Ix. revert SO Ix. generalize keys. intros ks SO Ix. generalize (emitted ps). intros em.
      induction ps as [|e L IH]; [reflexivity|]. cbn [fold_right]. rewrite IH. f_equal.
      destruct (em (fst e)); auto. destruct (idle use_lbr (snd e)); auto. apply wsum_ext. intros b _. f_equal.
      unfold enters. destruct (GetSymbolNameByStartAddr symtab (snd (fst b))); auto.
  Qed.

  Lemma sum_exch {A B} (g : A -> B -> Z) (L : list A) (X : list B) :
    fold_right (fun x acc => fold_right (fun e a => g e x + a) 0 L + acc) 0 X
    = fold_right (fun e a => fold_right (fun x acc => g e x + acc) 0 X + a) 0 L.
  Proof.
    induction X as [|x X IH]; cbn [fold_right].
    - induction L; cbn [fold_right]; auto.
    - rewrite IH. clear. induction L as [|e L IH]; cbn [fold_right]; [reflexivity|]. rewrite <- IH. lia.
  Qed.
  Lemma sum_wsum {K B} (P : B -> K -> bool) (Q : K -> bool) X l :
    (forall e, In e l -> fold_right (fun x acc => (if P x (fst e) then 1 else 0) + acc) 0 X = if Q (fst e) then 1 else 0) ->
    fold_right (fun x acc => wsum (P x) l + acc) 0 X = wsum Q l.
  Proof.
    intros H. unfold wsum. rewrite (sum_exch (fun e x => if P x (fst e) then snd e else 0)).
    induction l as [|e l IH]; [reflexivity|]. cbn [fold_right]. rewrite IH by (intros; apply H; right; auto). f_equal.
    specialize (H e (or_introl eq_refl)).
    assert (G : fold_right (fun x acc => (if P x (fst e) then snd e else 0) + acc) 0 X
              = snd e * fold_right (fun x acc => (if P x (fst e) then 1 else 0) + acc) 0 X).
    { clear. induction X as [|x X IH]; cbn [fold_right]; [lia|]. rewrite IH. destruct (P x (fst e)); lia. }
    rewrite G, H. destruct (Q (fst e)); lia.
  Qed.

  Theorem compute_counts :
    exists m', ComputeProfile base orig symtab stack_of dup use_lbr emit (fun _ => []) ps (SMap [] []) = Ok m' /\
      smap_ok m' /\
      forall n s', sm_find m' n = Some s' ->
        (forall q l, count_at s' q l = fold_right (fun e acc => part_max base stack_of dup use_lbr (snd e) q l + acc) 0 (parts_of orig ps n) mod 2 ^ 64) /\
        head_at s' [] = all_calls_to n mod 2 ^ 64.
  Proof.
    destruct compute_setup as (m1 & E1 & A1 & SOK & UNS & X1). unfold ComputeProfile. rewrite E1. cbn [obind].
    destruct (C12_elision_merges_when_idempotent orig m1) as (m' & E2 & SOK' & PR & SUM); auto.
    { intros x I. apply NS. rewrite A1 in I. apply filter_In in I. apply I. }
    exists m'. split; [exact E2|]. split; [exact SOK'|].
    rewrite A1 in PR, SUM.
    assert (EMIT : forall x, emitted ps x = emit (all_samples orig ps (orig x) mod 2 ^ 64)).
    { intros x. unfold PartsProps.emitted. rewrite part_count_spec. reflexivity. }
    intros n s' F.
    assert (EMn : emit (all_samples orig ps n mod 2 ^ 64) = true).
    { destruct (proj1 (PR n)) as (x & I & Ox); [congruence|]. apply filter_In in I. rewrite EMIT, Ox in I. apply I. }
    split.
    - intros q l. specialize (SUM n s' F (OCount q l)). cbn [observe] in SUM. rewrite SUM. clear SUM. f_equal.
      unfold total_over, parts_of.
      assert (H : forall L, (forall y py, In (y, py) L -> In (y, py) ps) ->
        fold_right Z.add 0 (map (fun x => match sm_find m1 x with Some s => observe (OCount q l) s | None => 0 end)
           (filter (fun x => name_eqb (orig x) n) (filter (emitted ps) (akeys L))))
        = fold_right (fun e acc => part_max base stack_of dup use_lbr (snd e) q l + acc) 0 (filter (fun e => name_eqb (orig (fst e)) n) L)).
      { induction L as [|[y py] L IH]; intros SUB; [reflexivity|].
        change (akeys ((y, py) :: L)) with (y :: akeys L). cbn [filter fst].
        specialize (IH ltac:(intros; apply SUB; right; auto)).
        destruct (emitted ps y) eqn:EMy; cbn [filter].
        - destruct (name_eqb (orig y) n); [|exact IH]. cbn [map fold_right snd].
          assert (Iy : In (y, py) ps) by (apply SUB; left; auto).
          destruct (X1 y) as (p & sx & Ip & Fx & Cx & _).
          { apply filter_In. split; auto. apply in_map_iff. exists (y, py); auto. }
          rewrite Fx. change (observe (OCount q l) sx) with (count_at sx q l). rewrite Cx.
          assert (p = py) by (pose proof (agetN y py ps ND Iy); pose proof (agetN y p ps ND Ip); congruence). subst p.
          rewrite IH. reflexivity.
        - destruct (name_eqb_spec (orig y) n) as [Oy|]; [|exact IH]. exfalso. rewrite EMIT, Oy in EMy. congruence. }
      apply H; auto.
    - specialize (SUM n s' F (OHead [])). cbn [observe] in SUM. rewrite SUM. clear SUM. unfold total_over.
      set (X := filter (fun x => name_eqb (orig x) n) keys).
      set (G := fun (x : name) (e : name * pmaps) => if emitted ps (fst e) then
           if idle use_lbr (snd e) then 0 else
           wsum (fun b => from_inside (snd e) b && match GetSymbolNameByStartAddr symtab (snd b) with
              | Some callee => existsb (fun y => name_eqb y callee) keys && name_eqb x callee | None => false end) (pm_branch (snd e))
           else 0).
      assert (NX : NoDup X) by (apply NoDup_filter, NoDup_filter; exact ND).
      assert (R : fold_right Z.add 0 (map (fun x => match sm_find m1 x with Some s => head_at s [] | None => 0 end) X) mod 2 ^ 64
        = fold_right (fun x acc => fold_right (fun e a => G x e + a) 0 ps + acc) 0 X mod 2 ^ 64).
      { assert (SUB : forall x, In x X -> In x keys) by (intros x I; apply filter_In in I; apply I).
        clear NX. induction X as [|x X IH]; [reflexivity|]. cbn [map fold_right].
        destruct (X1 x (SUB x (or_introl eq_refl))) as (p & sx & _ & -> & _ & ->).
        rewrite Zplus_mod_idemp_l, <- Zplus_mod_idemp_r, IH by (intros; apply SUB; right; auto). rewrite Zplus_mod_idemp_r. reflexivity. }
      etransitivity; [exact R|]. f_equal. rewrite (sum_exch (fun e x => G x e)). unfold all_calls_to.
      assert (Q : forall e, fold_right (fun x acc => G x e + acc) 0 X = (if emitted ps (fst e) then calls_to n (snd e) else 0)).
      { assert (Z0 : forall (Y : list name), fold_right (fun _ acc => 0 + acc) 0 Y = 0) by (clear; induction Y; cbn [fold_right]; lia).
        intros e. unfold G, calls_to. destruct (emitted ps (fst e)); [|apply Z0]. destruct (idle use_lbr (snd e)); [apply Z0|].
        apply (sum_wsum (fun x b => from_inside (snd e) b && match GetSymbolNameByStartAddr symtab (snd b) with
              | Some callee => existsb (fun y => name_eqb y callee) keys && name_eqb x callee | None => false end)).
        intros b _. destruct (from_inside (snd e) (fst b)); cbn [andb]; [|apply Z0].
        destruct (GetSymbolNameByStartAddr symtab (snd (fst b))) as [callee|]; [|apply Z0].
        assert (KE : existsb (fun y => name_eqb y callee) (akeys ps) && name_eqb (orig callee) n = existsb (fun y => name_eqb y callee) X).
        { apply eq_true_iff_eq. rewrite andb_true_iff, !existsb_exists. split.
          - intros [(y & Iy & Ey) On]. destruct (name_eqb_spec y callee); [|discriminate]. subst y. exists callee.
            split; [|destruct (name_eqb_spec callee callee); congruence]. apply filter_In. split; auto. apply filter_In. split; auto.
            destruct (name_eqb_spec (orig callee) n); [|discriminate]. rewrite EMIT. subst n. auto.
          - intros (y & Iy & Ey). destruct (name_eqb_spec y callee); [|discriminate]. subst y.
            apply filter_In in Iy. destruct Iy as [Iy On]. apply filter_In in Iy. split; auto. exists callee. split; [apply Iy|]. destruct (name_eqb_spec callee callee); congruence. }
        rewrite KE.
        assert (KS : existsb (fun y => name_eqb y callee) X = true -> existsb (fun y => name_eqb y callee) keys = true).
        { rewrite !existsb_exists. intros (y & Iy & Ey). exists y. split; auto. apply filter_In in Iy. apply Iy. }
        destruct (existsb (fun y => name_eqb y callee) X) eqn:EX.
        - rewrite (KS eq_refl). cbn [andb]. clear -NX EX. induction X as [|x X IH]; [discriminate|]. cbn [existsb fold_right] in *.
          inversion NX as [|? ? NI NX']; subst. destruct (name_eqb_spec x callee) as [->|NE]; cbn [orb] in EX.
          + assert (Z1 : forall Y, ~ In callee Y -> fold_right (fun x acc => (if name_eqb x callee then 1 else 0) + acc) 0 Y = 0).
            { clear. induction Y as [|y Y IH]; intros N; [reflexivity|]. cbn [fold_right In] in *. rewrite IH by tauto.
              destruct (name_eqb_spec y callee); [subst; tauto|lia]. }
            rewrite Z1 by auto. lia.
          + rewrite IH by auto. lia.
        - destruct (existsb (fun y => name_eqb y callee) keys); cbn [andb]; [|apply Z0].
          clear -EX. induction X as [|x X IH]; [reflexivity|]. cbn [existsb fold_right] in *. apply orb_false_iff in EX.
          destruct EX as [-> EX]. rewrite IH; auto. }
      assert (FE : forall (f g : name * pmaps -> Z) L, (forall e, f e = g e) ->
        fold_right (fun e a => f e + a) 0 L = fold_right (fun e a => g e + a) 0 L).
      { clear. intros f g L H. induction L as [|e L IH]; cbn [fold_right]; [reflexivity|]. rewrite H, IH. reflexivity. }
      exact (FE (fun e => fold_right (fun x acc => G x e + acc) 0 X) (fun e => if emitted ps (fst e) then calls_to n (snd e) else 0) ps Q).
  Qed.
End Compute.
