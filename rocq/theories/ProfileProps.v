(** C21, C48: from samples to source counts. *)
From Verif Require Import Base ZMap SymbolModel SymbolSpec SymbolProofs AttribProofs SymbolProps
  ElideModel ElideProofs ElideProps AddrModel AddrProps SampleModel SampleProofs ProfileModel ProfileSpec ProfileProofs.
From Coq Require Import Permutation.

(** *** Aggregation *)

(** C21: what the tool collects for a function. For every condition [P] on
    static addresses, the collected address (range, branch) counts meeting [P]
    add up to the counts of all samples whose static address (begin of the
    range, source of the branch) lies in that function and meet [P]. In
    particular nothing is lost, counted twice, or given to another function. *)
Theorem C21_aggregation_per_function : forall symtab segs s timestamps names ps,
  AggregatePerFunctionProfile symtab segs s timestamps names [] = Ok ps ->
  let stat := static_addr segs in
  (forall n p, aget name_eqb n ps = Some p ->
     exists v, GetSymbolInfoByAddr symtab v = Some (n, pm_start p, pm_end p)) /\
  forall n,
    (forall P, wsum P (pm_addr (profile_of ps n)) mod 2 ^ 64 =
       wsum (fun a => in_function symtab n (stat a) && P (stat a)) (sa_addr s) mod 2 ^ 64) /\
    (forall P, wsum P (pm_range (profile_of ps n)) mod 2 ^ 64 =
       wsum (fun r => in_function symtab n (stat (fst r)) && P (stat (fst r), stat (snd r))) (sa_range s) mod 2 ^ 64) /\
    (forall P, wsum P (pm_branch (profile_of ps n)) mod 2 ^ 64 =
       wsum (fun b => in_function symtab n (stat (fst b)) && P (stat (fst b), stat (snd b))) (sa_branch s) mod 2 ^ 64).
Proof.
  intros symtab segs s ts names ps H stat. unfold AggregatePerFunctionProfile in H.
  destruct (agg_addr symtab segs (sa_addr s) []) as [p1| |] eqn:E1; cbn [obind] in H; try discriminate.
  destruct (agg_ts symtab segs ts p1) as [p2| |] eqn:E2; cbn [obind] in H; try discriminate.
  destruct (agg_range symtab segs (sa_range s) p2) as [p3| |] eqn:E3; cbn [obind] in H; try discriminate.
  destruct (agg_branch symtab segs (sa_branch s) p3) as [p4| |] eqn:E4; cbn [obind] in H; try discriminate.
  apply agg_addr_spec in E1; [|intros n p; cbn; discriminate]. destruct E1 as [O1 A1].
  apply agg_ts_spec in E2; auto. destruct E2 as [O2 A2].
  apply agg_range_spec in E3; auto. destruct E3 as [O3 A3].
  apply agg_branch_spec in E4; auto. destruct E4 as [O4 A4].
  apply agg_names_spec in H; auto. destruct H as (O5 & A5 & _).
  split; [exact O5|]. intros n.
  destruct (A1 n) as (X1 & Y1 & Z1). destruct (A2 n) as (X2 & Y2 & Z2). destruct (A3 n) as (X3 & Y3 & Z3).
  destruct (A4 n) as (X4 & Y4 & Z4). destruct (A5 n) as (X5 & Y5 & Z5).
  split; [|split].
  - intros P. rewrite X5, Y4, Y3, X2. exact (X1 P).
  - intros P. rewrite Y5, Z4. specialize (X3 P). rewrite Y2, Y1 in X3. exact X3.
  - intros P. rewrite Z5. specialize (X4 P). rewrite Z3, Z2, Z1 in X4. exact X4.
Qed.
Print Assumptions C21_aggregation_per_function.

(** *** One function *)
Section One.
  Variables (base : Z -> Z) (orig : name -> name) (symtab : list (Z * (name * Z)))
    (stack_of : Z -> list sinfo) (dup : sinfo -> Z) (use_lbr : bool).
  Let im p := build_inst_map stack_of (pm_start p) (pm_end p).

  Lemma loc_located a q l : st_loc base q l (stack_of a) = located base stack_of a q l.
  Proof. reflexivity. Qed.
  Lemma in_inside a q : st_in base q (stack_of a) = inside base stack_of a q.
  Proof. unfold st_in, inside. destruct (stack_of a); reflexivity. Qed.

  Lemma im_snd p : snd (im p) = map stack_of (fn_addresses p).
  Proof.
    unfold im, build_inst_map, fn_addresses. destruct (pm_end p <=? pm_start p) eqn:E.
    - assert (Z.to_nat (pm_end p - pm_start p) = O) as -> by lia. reflexivity.
    - cbn [snd]. rewrite map_map. reflexivity.
  Qed.
  Lemma fn_addr_In p a : In a (fn_addresses p) <-> pm_start p <= a < pm_end p.
  Proof.
    unfold fn_addresses. rewrite in_map_iff. split.
    - intros (i & <- & I). apply in_seq in I. lia.
    - intros H. exists (Z.to_nat (a - pm_start p)). split; [lia|]. apply in_seq. lia.
  Qed.
  Lemma fn_addr_NoDup p : NoDup (fn_addresses p).
  Proof.
    apply FinFun.Injective_map_NoDup; [|apply seq_NoDup]. intros x y E. lia.
  Qed.

  Lemma add_0_nn x : 0 <= x -> 0 + x = x. Proof. lia. Qed.
  Lemma max_0_nn x : 0 <= x -> Z.max 0 x = x. Proof. lia. Qed.

  Lemma mfold_map' op (f : list sinfo * (Z * Z) -> Z) {A} (g : A -> list sinfo * (Z * Z)) l :
    mfold op f (map g l) = mfold op (fun x => f (g x)) l.
  Proof. induction l; [reflexivity|]. cbn [map]. rewrite !mfold_cons, IHl. auto. Qed.

  Definition counts_of (p : pmaps) : list (Z * Z) :=
    if use_lbr then range_counts (im p) (pm_range p) else pm_addr p.

  Lemma counts_of_spec p : pmaps_ok p ->
    NoDup (akeys (counts_of p)) /\ Forall (fun e => is_u64 (fst e)) (counts_of p) /\
    forall a, In a (fn_addresses p) -> cnt Z.eqb (counts_of p) a = exec_count use_lbr p a.
  Proof.
    intros (S0 & E0 & ND & FA & FK & FR & FB). unfold counts_of, exec_count. destruct use_lbr.
    - destruct (range_counts_spec stack_of (pm_start p) (pm_end p) S0 E0 (pm_range p)) as (A & B & C); auto.
      split; [exact B|]. split.
      + apply Forall_forall. intros [k v] I. cbn [fst]. apply in_map with (f := fst) in I.
        apply C in I. cbn [fst] in I. unfold is_u64. lia.
      + intros a I. apply fn_addr_In in I. unfold im. rewrite A.
        assert ((pm_start p <=? a) && (a <? pm_end p) = true) as -> by lia. reflexivity.
    - split; [exact ND|]. split; [exact FK|]. intros a _. reflexivity.
  Qed.

  (** the contribution of address [a] when [sel] selects its stack *)
  Definition contrib (sel : list sinfo -> bool) (p : pmaps) (a c : Z) : Z :=
    if (pm_start p <=? a) && (a <? pm_end p) && (0 <=? a) && (a <? 2 ^ 64) then
      match stack_of a with
      | [] => 0
      | leaf :: r => if sel (leaf :: r) then u64 (c * dup leaf) else 0
      end
    else 0.

  Lemma entries_fold op (sel : list sinfo -> bool) p :
    (forall x y, op x y = op y x) -> (forall x y z, op x (op y z) = op (op x y) z) ->
    (forall x, 0 <= x -> op 0 x = x) -> (forall x y, 0 <= x -> 0 <= y -> 0 <= op x y) ->
    sel [] = false -> pmaps_ok p ->
    mfold op (fun e => if sel (fst e) then fst (snd e) else 0) (map (entry_of dup (im p)) (counts_of p))
    = mfold op (fun a => if sel (stack_of a) then weight stack_of dup use_lbr p a else 0) (fn_addresses p).
  Proof.
    intros oc oa o0 on S0 OK. destruct (counts_of_spec p OK) as (ND & FK & CE).
    destruct OK as (Sp & Ep & _). rewrite mfold_map'.
    transitivity (mfold op (fun e => contrib sel p (fst e) (snd e)) (counts_of p)).
    { apply mfold_ext. intros [a c] I. rewrite Forall_forall in FK. specialize (FK _ I). cbn [fst snd] in *.
      unfold entry_of, contrib, im. cbn [fst snd]. rewrite C17_instruction_lookup by (auto; apply FK).
      unfold is_u64 in FK. assert ((0 <=? a) = true) as -> by lia. assert ((a <? 2 ^ 64) = true) as -> by lia.
      rewrite !andb_true_r. destruct ((pm_start p <=? a) && (a <? pm_end p)); [|cbn; rewrite S0; auto].
      destruct (stack_of a); cbn [fst snd]; auto. rewrite S0. auto. }
    rewrite (mfold_map op oc oa o0 on (contrib sel p) (fn_addresses p)); auto.
    - apply mfold_ext. intros a I. rewrite (CE a I). unfold contrib, weight. apply fn_addr_In in I.
      assert ((pm_start p <=? a) && (a <? pm_end p) && (0 <=? a) && (a <? 2 ^ 64) = true) as -> by lia.
      destruct (stack_of a); [rewrite S0; auto|]. match goal with |- context [sel ?x] => destruct (sel x) end; reflexivity.
    - apply fn_addr_NoDup.
    - intros a. unfold contrib. match goal with |- context [if ?x then _ else _] => destruct x end; auto. destruct (stack_of a); auto. match goal with |- context [sel ?x] => destruct (sel x) end; reflexivity.
    - intros a c. unfold contrib. match goal with |- context [if ?x then _ else _] => destruct x end; [|lia]. destruct (stack_of a); [lia|]. match goal with |- context [sel ?x] => destruct (sel x) end; [|lia].
      apply Z.mod_pos_bound. unfold w64; lia.
    - intros a c N. unfold contrib. rewrite fn_addr_In in N.
      assert ((pm_start p <=? a) && (a <? pm_end p) && (0 <=? a) && (a <? 2 ^ 64) = false) as -> by lia. auto.
  Qed.

  Lemma touch_sum p (sel : list sinfo -> bool) : sel [] = false ->
    mfold Z.add (fun e : list sinfo * (Z * Z) => if sel (fst e) then snd (snd e) else 0)
      (map (fun st => (st, (0, 1))) (snd (im p)))
    = sum_over (fun a => if sel (stack_of a) then 1 else 0) (fn_addresses p).
  Proof.
    intros _. rewrite im_snd, map_map, mfold_map'. reflexivity.
  Qed.

  Lemma timestamp_spec n ts m s : sm_find m n = Some s -> all_ok m ->
    exists m', AddSymbolTimestamp n ts m = Ok m' /\ sm_names m' = sm_names m /\ all_ok m' /\
      forall x sx, sm_find m x = Some sx -> exists sx', sm_find m' x = Some sx' /\
        forall q l t, total_at sx' q = total_at sx q /\ head_at sx' q = head_at sx q /\
           count_at sx' q l = count_at sx q l /\ ninst_at sx' q l = ninst_at sx q l /\
           has_target sx' q l t = has_target sx q l t /\ target_at sx' q l t = target_at sx q l t.
  Proof.
    intros Hf OK. unfold AddSymbolTimestamp.
    set (f := fun s => match s with Sym h t _ p cs => Sym h t ts p cs end).
    destruct (sm_update_spec n f m s Hf) as (m' & U & SO & FI). exists m'. split; [exact U|].
    split.
    { unfold sm_update in U. destruct (aget _ _ _); [|discriminate]. destruct (nth_error _ _); [|discriminate].
      injection U as <-. reflexivity. }
    split.
    { intros x sx H. rewrite FI in H. destruct (same_object m x n); eauto.
      injection H as <-. pose proof (OK _ _ Hf) as K. destruct K. cbn. constructor; auto. }
    intros x sx H. rewrite FI. destruct (same_object m x n) eqn:O.
    - exists (f s). split; auto. rewrite (same_find _ _ _ _ O H) in Hf. injection Hf as <-.
      destruct sx. intros [|k q] l0 t0; repeat split; auto.
    - exists sx. repeat split; auto.
  Qed.

  Lemma br_calls_spec p m x e : pmaps_ok p -> is_u64 (fst (fst e)) ->
    br_calls symtab (im p) m x e = from_inside p (fst e) && enters symtab m x (fst e).
  Proof.
    intros (Sp & Ep & _) U. unfold br_calls, from_inside, enters, im.
    rewrite C17_instruction_lookup by auto.
    destruct ((pm_start p <=? fst (fst e)) && (fst (fst e) <? pm_end p)); auto.
  Qed.
  Lemma br_hit_spec p m q l t e : pmaps_ok p -> is_u64 (fst (fst e)) ->
    br_hit base orig symtab (im p) m q l t e
    = from_inside p (fst e) && call_at base orig symtab stack_of m q l t (fst e).
  Proof.
    intros (Sp & Ep & _) U. unfold br_hit, from_inside, call_at, im.
    rewrite C17_instruction_lookup by auto.
    destruct ((pm_start p <=? fst (fst e)) && (fst (fst e) <? pm_end p)); auto.
  Qed.

  (** everything processing one function does *)
  Lemma process_spec n p m s :
    pmaps_ok p -> sm_find m n = Some s -> profile_ok m ->
    (use_lbr = true -> pm_range p <> []) ->
    let w a := weight stack_of dup use_lbr p a in
    exists m', ProcessPerFunctionProfile base orig symtab stack_of dup use_lbr n p m = Ok m' /\
      sm_names m' = sm_names m /\ profile_ok m' /\
      forall x sx, sm_find m x = Some sx -> exists sx', sm_find m' x = Some sx' /\ forall q l t,
        (if same_object m x n then
          count_at sx' q l = Z.max (count_at sx q l)
            (max_over (fun a => if located base stack_of a q l then w a else 0) (fn_addresses p)) /\
          total_at sx' q = (total_at sx q +
            sum_over (fun a => if inside base stack_of a q then w a else 0) (fn_addresses p)) mod 2 ^ 64 /\
          ninst_at sx' q l = (ninst_at sx q l +
            sum_over (fun a => if located base stack_of a q l then 1 else 0) (fn_addresses p)) mod 2 ^ 64
        else
          count_at sx' q l = count_at sx q l /\ total_at sx' q = total_at sx q /\
          ninst_at sx' q l = ninst_at sx q l) /\
        head_at sx' q = (if path_eqb q [] then
          (head_at sx q + wsum (fun b => from_inside p b && enters symtab m x b) (pm_branch p)) mod 2 ^ 64
          else head_at sx q) /\
        has_target sx' q l t = has_target sx q l t || (same_object m x n &&
          existsb (fun e => from_inside p (fst e) && call_at base orig symtab stack_of m q l t (fst e)) (pm_branch p)) /\
        target_at sx' q l t = if same_object m x n then
          last_hit (fun e => from_inside p (fst e) && call_at base orig symtab stack_of m q l t (fst e)) (pm_branch p) (target_at sx q l t)
          else target_at sx q l t.
  Proof.
    intros OK Hf POK LBR w. unfold ProcessPerFunctionProfile. fold (im p).
    rewrite touch_insts_all.
    destruct (add_all_spec base n (map (fun st => (st, (0, 1))) (snd (im p))) m s Hf (POK _ _ Hf))
      as (m1 & s1 & E1 & N1 & F1 & K1 & X1).
    { apply Forall_forall. intros e I. apply in_map_iff in I. destruct I as (st & <- & _). cbn. unfold is_u64. lia. }
    rewrite E1. cbn [obind].
    assert (O1 : all_ok m1).
    { intros x sx H. rewrite F1 in H. destruct (same_object m x n); [congruence|]. eapply POK; eauto. }
    assert (H1 : sm_find m1 n = Some s1) by (rewrite F1, (same_object_refl m n s Hf); auto).
    destruct (timestamp_spec n (pm_ts p) m1 s1 H1 O1) as (m2 & E2 & N2 & O2 & X2). rewrite E2. cbn [obind].
    destruct (X2 _ _ H1) as (s2 & H2 & X2n).
    assert (BODY : exists m', (let! m := add_counts_loop base dup n (im p) (counts_of p) m2 in
                              add_branches base orig symtab n (im p) (pm_branch p) m) = Ok m' /\
      (match use_lbr, pm_range p with
       | true, [] => Ok m2
       | _, _ => let! m := add_counts_loop base dup n (im p)
                    (if use_lbr then range_counts (im p) (pm_range p) else pm_addr p) m2 in
                 add_branches base orig symtab n (im p) (pm_branch p) m
       end) = Ok m' /\ sm_names m' = sm_names m /\ profile_ok m' /\
      forall x sx, sm_find m x = Some sx -> exists sx', sm_find m' x = Some sx' /\ forall q l t,
        (if same_object m x n then
          count_at sx' q l = Z.max (count_at sx q l)
            (max_over (fun a => if located base stack_of a q l then w a else 0) (fn_addresses p)) /\
          total_at sx' q = (total_at sx q +
            sum_over (fun a => if inside base stack_of a q then w a else 0) (fn_addresses p)) mod 2 ^ 64 /\
          ninst_at sx' q l = (ninst_at sx q l +
            sum_over (fun a => if located base stack_of a q l then 1 else 0) (fn_addresses p)) mod 2 ^ 64
        else
          count_at sx' q l = count_at sx q l /\ total_at sx' q = total_at sx q /\
          ninst_at sx' q l = ninst_at sx q l) /\
        head_at sx' q = (if path_eqb q [] then
          (head_at sx q + wsum (fun b => from_inside p b && enters symtab m x b) (pm_branch p)) mod 2 ^ 64
          else head_at sx q) /\
        has_target sx' q l t = has_target sx q l t || (same_object m x n &&
          existsb (fun e => from_inside p (fst e) && call_at base orig symtab stack_of m q l t (fst e)) (pm_branch p)) /\
        target_at sx' q l t = if same_object m x n then
          last_hit (fun e => from_inside p (fst e) && call_at base orig symtab stack_of m q l t (fst e)) (pm_branch p) (target_at sx q l t)
          else target_at sx q l t).
    2: { destruct BODY as (m' & _ & B). exists m'. exact B. }
    rewrite add_counts_all.
    destruct (add_all_spec base n (map (entry_of dup (im p)) (counts_of p)) m2 s2 H2 (O2 _ _ H2))
      as (m3 & s3 & E3 & N3 & F3 & K3 & X3).
    { apply Forall_forall. intros e I. apply in_map_iff in I. destruct I as (ac & <- & _).
      unfold entry_of. destruct (inst_info _ _) as [[|leaf r]|]; cbn [fst snd]; unfold is_u64; try lia.
      change (2 ^ 64) with w64. apply Z.mod_pos_bound. unfold w64; lia. }
    rewrite E3. cbn [obind].
    assert (O3 : all_ok m3).
    { intros x sx H. rewrite F3 in H. destruct (same_object m2 x n); [congruence|]. eapply O2; eauto. }
    assert (H3 : sm_find m3 n = Some s3) by (rewrite F3, (same_object_refl m2 n s2 H2); auto).
    assert (FB : Forall (fun e => is_u64 (snd e)) (pm_branch p) /\ Forall (fun e => is_u64 (fst (fst e))) (pm_branch p)).
    { destruct OK as (_ & _ & _ & _ & _ & _ & FB). split; (eapply Forall_impl; [|exact FB]); cbn; tauto. }
    destruct FB as [FB1 FB2].
    destruct (add_branches_spec base orig symtab (im p) n (pm_branch p) m3 s3 H3 O3 FB1) as (m4 & E4 & N4 & O4 & X4).
    exists m4. split; [exact E4|]. split.
    { unfold counts_of in E3. rewrite <- add_counts_all in E3.
      destruct use_lbr; [destruct (pm_range p) eqn:R; [exfalso; apply LBR; auto|]|]; rewrite E3; exact E4. }
    split; [congruence|]. split; [exact O4|].
    assert (SO : forall m', sm_names m' = sm_names m -> forall x y, same_object m' x y = same_object m x y)
      by (intros; apply same_object_names; auto).
    assert (KN : forall x, match sm_find m3 x with Some _ => true | None => false end
                          = match sm_find m x with Some _ => true | None => false end).
    { intros x. rewrite F3, SO by congruence. destruct (same_object m x n) eqn:O.
      - assert (O' : same_object m n x = true).
        { revert O. unfold same_object. destruct (aget _ x _), (aget _ n _); auto. rewrite Nat.eqb_sym. auto. }
        rewrite (same_find _ _ _ _ O' Hf). auto.
      - destruct (sm_find m x) eqn:Fx.
        + assert (G1 : sm_find m1 x = Some s0) by (rewrite F1, O; auto).
          destruct (X2 _ _ G1) as (? & -> & _). auto.
        + destruct (sm_find m2 x) eqn:F2x; auto. exfalso.
          assert (G1 : sm_find m1 x = None) by (rewrite F1, O; auto).
          revert G1 F2x. unfold AddSymbolTimestamp, sm_update in E2.
          destruct (aget name_eqb n (sm_names m1)) as [i|]; [|discriminate].
          destruct (nth_error (sm_heap m1) i); [|discriminate]. injection E2 as <-.
          unfold sm_find. cbn [sm_names sm_heap]. destruct (aget name_eqb x (sm_names m1)); [|discriminate].
          intros G1 G2. apply nth_error_None in G1. assert (nth_error (set_nth i (match s4 with Sym h t _ p0 cs => Sym h t (pm_ts p) p0 cs end) (sm_heap m1)) n0 <> None) as G3 by congruence.
          apply nth_error_Some in G3. rewrite set_nth_length in G3. lia. }
    intros x sx Fx. 
    assert (G1 : exists sx1, sm_find m1 x = Some sx1 /\ forall q l t,
       (if same_object m x n then
          count_at sx1 q l = count_at sx q l /\ total_at sx1 q = total_at sx q /\
          ninst_at sx1 q l = (ninst_at sx q l +
            sum_over (fun a => if located base stack_of a q l then 1 else 0) (fn_addresses p)) mod 2 ^ 64
        else count_at sx1 q l = count_at sx q l /\ total_at sx1 q = total_at sx q /\ ninst_at sx1 q l = ninst_at sx q l) /\
       head_at sx1 q = head_at sx q /\ has_target sx1 q l t = has_target sx q l t /\ target_at sx1 q l t = target_at sx q l t).
    { rewrite F1. destruct (same_object m x n) eqn:O.
      - exists s1. split; auto. rewrite (same_find _ _ _ _ O Fx) in Hf. injection Hf as <-.
        intros q l t. destruct (X1 q l t) as (A1 & A2 & A3 & A4 & A5 & A6 & A7 & A8).
        repeat split; auto.
        + rewrite A5. rewrite mfold_map'.
          assert (MX : forall (L : list (list sinfo)), mfold Z.max (fun st => q_count base q l (st, (0, 1))) L = 0).
          { intros L. apply mfold_zero; [intros; lia|]. intros st _. unfold q_count. cbn. destruct (st_loc _ _ _ _); auto. }
          rewrite MX. pose proof (observe_range (OCount q l) sx (POK _ _ Fx)) as R. cbn [observe] in R. unfold is_u64 in R. lia.
        + rewrite A2. rewrite mfold_map'.
          assert (MX : forall (L : list (list sinfo)), mfold Z.add (fun st => q_total base q (st, (0, 1))) L = 0).
          { intros L. apply mfold_zero; [intros; lia|]. intros st _. unfold q_total. cbn. destruct (st_in _ _ _); auto. }
          rewrite MX, Z.add_0_r. apply Z.mod_small.
          apply (observe_range (OTotal q) sx (POK _ _ Fx)).
        + rewrite A6. f_equal. f_equal. exact (touch_sum p (st_loc base q l) eq_refl).
      - exists sx. split; auto. }
    destruct G1 as (sx1 & G1 & Y1). destruct (X2 _ _ G1) as (sx2 & G2 & Y2).
    assert (G3 : exists sx3, sm_find m3 x = Some sx3 /\ forall q l t,
       (if same_object m x n then
          count_at sx3 q l = Z.max (count_at sx q l)
            (max_over (fun a => if located base stack_of a q l then w a else 0) (fn_addresses p)) /\
          total_at sx3 q = (total_at sx q +
            sum_over (fun a => if inside base stack_of a q then w a else 0) (fn_addresses p)) mod 2 ^ 64 /\
          ninst_at sx3 q l = (ninst_at sx q l +
            sum_over (fun a => if located base stack_of a q l then 1 else 0) (fn_addresses p)) mod 2 ^ 64
        else
          count_at sx3 q l = count_at sx q l /\ total_at sx3 q = total_at sx q /\
          ninst_at sx3 q l = ninst_at sx q l) /\
       head_at sx3 q = head_at sx q /\ has_target sx3 q l t = has_target sx q l t /\ target_at sx3 q l t = target_at sx q l t).
    { rewrite F3, SO by congruence. destruct (same_object m x n) eqn:O.
      - exists s3. split; auto.
        assert (sx2 = s2).
        { assert (O' : same_object m2 x n = true) by (rewrite SO; auto; congruence).
          pose proof (same_find _ _ _ _ O' G2). congruence. } subst sx2.
        intros q l t. destruct (X3 q l t) as (A1 & A2 & A3 & A4 & A5 & A6 & A7 & A8).
        destruct (Y2 q l t) as (B1 & B2 & B3 & B4 & B5 & B6). destruct (Y1 q l t) as ((C1 & C2 & C3) & C4 & C5 & C6).
        rewrite A2, A3, A5, A6, A7, A8, B1, B2, B3, B4, B5, B6, C1, C2, C3, C4, C5, C6.
        repeat split; auto.
        + f_equal. exact (entries_fold Z.max (st_loc base q l) p Z.max_comm Z.max_assoc max_0_nn ltac:(intros; lia) eq_refl OK).
        + f_equal. f_equal.
          pose proof (entries_fold Z.add (st_in base q) p Z.add_comm Z.add_assoc add_0_nn ltac:(intros; lia) eq_refl OK) as EF.
          unfold q_total. rewrite EF. unfold mfold, sum_over.
          assert (EX : forall L, fold_right (fun x acc => (if st_in base q (stack_of x) then weight stack_of dup use_lbr p x else 0) + acc) 0 L
            = fold_right (fun a acc => (if inside base stack_of a q then w a else 0) + acc) 0 L).
          { intros L. induction L; cbn; auto. rewrite IHL, in_inside. auto. }
          apply EX.
        + rewrite mfold_zero; [rewrite Z.add_0_r; apply Z.mod_mod; lia|intros; lia|].
          intros e I. apply in_map_iff in I. destruct I as (ac & <- & _). unfold q_ninst, entry_of.
          destruct (inst_info _ _) as [[|leaf r]|]; cbn [fst snd]; destruct (st_loc _ _ _ _); auto.
      - exists sx2. split; auto. intros q l t.
        destruct (Y2 q l t) as (B1 & B2 & B3 & B4 & B5 & B6). destruct (Y1 q l t) as ((C1 & C2 & C3) & C4 & C5 & C6).
        rewrite B1, B2, B3, B4, B5, B6. auto. }
    destruct G3 as (sx3 & G3 & Y3). destruct (X4 _ _ G3) as (sx4 & G4 & Y4).
    exists sx4. split; auto. intros q l t.
    destruct (Y4 q l t) as (B1 & B2 & B3 & B4 & B5 & B6). destruct (Y3 q l t) as (C0 & C4 & C5 & C6).
    rewrite B1, B2, B3. split; [exact C0|].
    rewrite SO in B5, B6 by congruence.
    assert (HIT : forall e, In e (pm_branch p) -> br_hit base orig symtab (im p) m3 q l t e
             = from_inside p (fst e) && call_at base orig symtab stack_of m q l t (fst e)).
    { intros e I. rewrite Forall_forall in FB2. rewrite br_hit_spec by auto. f_equal. unfold call_at.
      destruct (GetSymbolNameByStartAddr symtab (snd (fst e))); auto. rewrite KN. auto. }
    split; [|split].
    - rewrite B4, C4. destruct (path_eqb q []); auto. f_equal. f_equal. unfold wsum.
      revert FB2. clear - OK SO N1 N2 N3. generalize (pm_branch p). intros L F. induction L as [|e L IH]; auto.
      rewrite mfold_cons. cbn [fold_right]. rewrite IH by (inversion F; auto).
      rewrite br_calls_spec by (auto; inversion F; auto).
      assert (enters symtab m3 x (fst e) = enters symtab m x (fst e)) as ->; auto.
      unfold enters. destruct (GetSymbolNameByStartAddr _ _); auto. apply SO. congruence.
    - rewrite B5, C5. f_equal. f_equal. revert HIT. clear. generalize (pm_branch p). induction l0; intros H; auto.
      cbn [existsb]. rewrite H by (left; auto). f_equal. apply IHl0. intros; apply H; right; auto.
    - rewrite B6, C6. destruct (same_object m x n); auto. unfold last_hit. revert HIT. clear.
      generalize (target_at sx q l t). generalize (pm_branch p). induction l0; intros v H; auto.
      cbn [fold_left]. rewrite H by (left; auto). apply IHl0. intros; apply H; right; auto.
  Qed.

  (** C21: processing one function whose collected profile has samples. For
      every inline path [q] and location [l]:
      - the count of a location is the largest weight of an instruction at that
        location (old counts are never lowered), where the weight of an
        instruction is the sum of the counts of the ranges containing it
        (its own samples without LBR) times the duplication factor;
      - the total of an inlined function is the sum of the weights of all its
        instructions;
      - the instruction number of a location is the number of its instructions;
      - head counts of other functions aside, no other function changes. *)
  Theorem C21_counts : forall n p m s,
    pmaps_ok p -> sm_find m n = Some s -> profile_ok m ->
    (use_lbr = true -> pm_range p <> []) ->
    let w a := weight stack_of dup use_lbr p a in
    exists m', ProcessPerFunctionProfile base orig symtab stack_of dup use_lbr n p m = Ok m' /\
      sm_names m' = sm_names m /\ profile_ok m' /\
      forall x sx, sm_find m x = Some sx -> exists sx', sm_find m' x = Some sx' /\ forall q l,
        if same_object m x n then
          count_at sx' q l = Z.max (count_at sx q l)
            (max_over (fun a => if located base stack_of a q l then w a else 0) (fn_addresses p)) /\
          total_at sx' q = (total_at sx q +
            sum_over (fun a => if inside base stack_of a q then w a else 0) (fn_addresses p)) mod 2 ^ 64 /\
          ninst_at sx' q l = (ninst_at sx q l +
            sum_over (fun a => if located base stack_of a q l then 1 else 0) (fn_addresses p)) mod 2 ^ 64
        else
          count_at sx' q l = count_at sx q l /\ total_at sx' q = total_at sx q /\
          ninst_at sx' q l = ninst_at sx q l.
  Proof.
    intros n p m s OK Hf POK LBR w.
    destruct (process_spec n p m s OK Hf POK LBR) as (m' & E & N & K & X). exists m'. repeat split; auto.
    intros x sx H. destruct (X x sx H) as (sx' & H' & Y). exists sx'. split; auto.
    intros q l. apply (Y q l []).
  Qed.

  (** C21: entry counts. The entry count of every function grows by the counts
      of the branches of the processed function that go to its entry. *)
  Theorem C21_entry_counts : forall n p m s,
    pmaps_ok p -> sm_find m n = Some s -> profile_ok m ->
    (use_lbr = true -> pm_range p <> []) ->
    exists m', ProcessPerFunctionProfile base orig symtab stack_of dup use_lbr n p m = Ok m' /\
      forall x sx, sm_find m x = Some sx -> exists sx', sm_find m' x = Some sx' /\
        head_at sx' [] = (head_at sx [] +
          wsum (fun b => from_inside p b && enters symtab m x b) (pm_branch p)) mod 2 ^ 64.
  Proof.
    intros n p m s OK Hf POK LBR.
    destruct (process_spec n p m s OK Hf POK LBR) as (m' & E & N & K & X). exists m'. split; auto.
    intros x sx H. destruct (X x sx H) as (sx' & H' & Y). exists sx'. split; auto.
    destruct (Y [] 0 []) as (_ & Hd & _). exact Hd.
  Qed.

  (** C21: call targets. A target appears at a location exactly when some call
      from that location to it was sampled; its count is the count of the last
      such branch of the branch map (so the exact count when there is one). *)
  Theorem C21_call_targets : forall n p m s,
    pmaps_ok p -> sm_find m n = Some s -> profile_ok m ->
    (use_lbr = true -> pm_range p <> []) ->
    exists m', ProcessPerFunctionProfile base orig symtab stack_of dup use_lbr n p m = Ok m' /\
      forall x sx, sm_find m x = Some sx -> exists sx', sm_find m' x = Some sx' /\ forall q l t,
        let hits := filter (fun e => from_inside p (fst e) && call_at base orig symtab stack_of m q l t (fst e)) (pm_branch p) in
        (same_object m x n = false \/ hits = [] ->
           has_target sx' q l t = has_target sx q l t /\ target_at sx' q l t = target_at sx q l t) /\
        (forall h e, same_object m x n = true -> hits = h ++ [e] ->
           has_target sx' q l t = true /\ target_at sx' q l t = snd e).
  Proof.
    intros n p m s OK Hf POK LBR.
    destruct (process_spec n p m s OK Hf POK LBR) as (m' & E & N & K & X). exists m'. split; auto.
    intros x sx H. destruct (X x sx H) as (sx' & H' & Y). exists sx'. split; auto.
    intros q l t hits. destruct (Y q l t) as (_ & _ & T1 & T2). rewrite T1, T2. subst hits.
    set (h := fun e : (Z * Z) * Z => from_inside p (fst e) && call_at base orig symtab stack_of m q l t (fst e)) in *. clear -h.
    assert (EX : forall L, existsb h L = match filter h L with [] => false | _ => true end).
    { induction L as [|e L IH]; cbn; auto. destruct (h e); cbn; auto. }
    assert (LH : forall L v, last_hit h L v = last (map snd (filter h L)) v).
    { unfold last_hit. induction L as [|e L IH]; intros v; cbn [fold_left filter]; auto. rewrite IH.
      destruct (h e); auto. cbn [map last]. destruct (filter h L) as [|e2 L2]; auto.
      cbn [map]. assert (G : forall (l : list Z) d d' y, last (y :: l) d = last (y :: l) d').
      { clear. intros l. induction l as [|z l IH]; intros; [reflexivity|]. exact (IH d d' z). }
      apply G. }
    rewrite EX, LH. split.
    - intros [->| ->]; [rewrite orb_false_r; auto|]. cbn. rewrite andb_false_r, orb_false_r. split; auto.
      destruct (same_object m x n); auto.
    - intros g e -> ->. split; [destruct (g ++ [e]) eqn:G; [destruct g; discriminate|rewrite orb_true_r; auto]|].
      rewrite map_app. cbn [map]. apply last_last.
  Qed.
End One.
Print Assumptions C21_counts.
Print Assumptions C21_entry_counts.
Print Assumptions C21_call_targets.


(** Concrete data: function "f" = [0x10, 0x14) of one symbol table with "g" at
    0x20; all instructions of "f" at line 3 of a function starting at line 1. *)
Definition ex_f : name := [102]. Definition ex_g : name := [103].
Definition ex_tab : list (Z * (name * Z)) := [(16, (ex_f, 4)); (32, (ex_g, 4))].
Definition ex_stack (a : Z) : list sinfo := [SInfo ex_f 1 (if a =? 18 then 4 else 3) 0].
Definition ex_prof : pmaps :=
  {| pm_start := 16; pm_end := 20; pm_ts := 0; pm_addr := [];
     pm_range := [((16, 18), 5); ((17, 19), 7)];
     pm_branch := [((16, 32), 5); ((17, 32), 7)] |}.
Definition ex_map : smap := AddSymbol [] ex_g (AddSymbol [] ex_f (SMap [] [])).

Example C21_nonvacuous :
  pmaps_ok ex_prof /\ sm_find ex_map ex_f = Some sym0 /\ profile_ok ex_map /\
  (forall a, In a [16; 17; 18; 19] ->
     weight ex_stack (fun _ => 1) true ex_prof a = if a =? 16 then 5 else if a =? 19 then 7 else 12) /\
  exists m' sf sg, ProcessPerFunctionProfile (fun d => d) (fun n => n) ex_tab ex_stack (fun _ => 1) true ex_f ex_prof ex_map = Ok m' /\
    sm_find m' ex_f = Some sf /\ sm_find m' ex_g = Some sg /\
    count_at sf [] (si_offset (fun d => d) (SInfo ex_f 1 3 0)) = 12 /\ total_at sf [] = 36 /\ head_at sg [] = 12.
Proof.
  split; [|split; [reflexivity|split]].
  - unfold pmaps_ok. cbn. repeat split; try lia; repeat constructor; unfold is_u64; cbn; try lia; auto.
  - intros x s H. unfold ex_map, AddSymbol, sm_find in H. cbn in H.
    destruct (name_eqb x ex_f) eqn:?; cbn in H.
    + injection H as <-. constructor; try (unfold is_u64; lia); try (split; constructor); try constructor. intros k c [].
    + destruct (name_eqb x ex_g); cbn in H; [|discriminate].
      injection H as <-. constructor; try (unfold is_u64; lia); try (split; constructor); try constructor. intros k c [].
  - split.
    + intros a [<-|[<-|[<-|[<-|[]]]]]; reflexivity.
    + do 3 eexists. split; [vm_compute; reflexivity|].
      repeat (split; [vm_compute; reflexivity|]). vm_compute; reflexivity.
Qed.

(** The second half of C21 as stated ("a call target count equals the sum of the
    branch samples at that source and target") is false: two call instructions
    of the same location to the same callee, sampled 5 and 7 times, leave a
    target count of 7 (AddIndirectCallTarget assigns). *)
Theorem C21_call_target_sum_refuted :
  exists m' sf, ProcessPerFunctionProfile (fun d => d) (fun n => n) ex_tab ex_stack (fun _ => 1) true ex_f ex_prof ex_map = Ok m' /\
    sm_find m' ex_f = Some sf /\
    let l := si_offset (fun d => d) (SInfo ex_f 1 3 0) in
    located (fun d => d) ex_stack 16 [] l = true /\ located (fun d => d) ex_stack 17 [] l = true /\
    wsum (fun b => from_inside ex_prof b && call_at (fun d => d) (fun n => n) ex_tab ex_stack ex_map [] l ex_g b) (pm_branch ex_prof) = 12 /\
    target_at sf [] l ex_g = 7.
Proof.
  do 2 eexists. split; [vm_compute; reflexivity|]. split; [vm_compute; reflexivity|]. cbv zeta.
  repeat (split; [vm_compute; reflexivity|]). vm_compute; reflexivity.
Qed.
Print Assumptions C21_call_target_sum_refuted.

(** With LBR, a function part with branch samples but no range loses them: no
    call target, no entry count. *)
Theorem C21_branches_without_ranges_are_dropped : forall base orig symtab stack_of dup n p m m',
  pm_range p = [] -> ProcessPerFunctionProfile base orig symtab stack_of dup true n p m = Ok m' ->
  forall br, ProcessPerFunctionProfile base orig symtab stack_of dup true n
    {| pm_start := pm_start p; pm_end := pm_end p; pm_ts := pm_ts p; pm_addr := pm_addr p;
       pm_range := []; pm_branch := br |} m = Ok m'.
Proof.
  intros base orig symtab stack_of dup n p m m' R H br. unfold ProcessPerFunctionProfile in *.
  cbn [pm_start pm_end pm_ts pm_range pm_branch]. rewrite R in H. exact H.
Qed.
Print Assumptions C21_branches_without_ranges_are_dropped.
