From Verif Require Import Base SampleModel.
From Coq Require Import Permutation.
Local Ltac zb := Z.div_mod_to_equations; nia.

Definition okbase (b : Z) : Prop := b = 10 \/ b = 16.

Lemma digit_val_char b d : okbase b -> 0 <= d < b -> digit_val b (digit_char d) = Some d.
Proof.
  intros B D. unfold digit_char, digit_val. destruct B; subst b.
  - assert (d <? 10 = true) as -> by lia.
    assert ((48 <=? 48 + d) && (48 + d <=? 57) = true) as -> by lia.
    replace (48 + d - 48) with d by lia. assert (d <? 10 = true) as -> by lia. reflexivity.
  - destruct (d <? 10) eqn:E.
    + assert ((48 <=? 48 + d) && (48 + d <=? 57) = true) as -> by lia.
      replace (48 + d - 48) with d by lia. assert (d <? 16 = true) as -> by lia. reflexivity.
    + assert ((48 <=? 87 + d) && (87 + d <=? 57) = false) as -> by lia.
      assert ((97 <=? 87 + d) && (87 + d <=? 102) = true) as -> by lia.
      replace (87 + d - 87) with d by lia. assert (d <? 16 = true) as -> by lia. reflexivity.
Qed.

Lemma scan_digits_print b : okbase b -> forall f n acc any tail, (0 < f)%nat -> 0 <= n < b ^ Z.of_nat f ->
  exists k, 0 <= k /\
  scan_digits b acc any (print_base f b n ++ tail) = scan_digits b (acc * k + n) true tail.
Proof.
  intros B. assert (B2 : 2 <= b) by (destruct B; lia).
  induction f as [|f IH]; intros n acc any tail F N; [lia|].
  cbn [print_base]. destruct (n <? b) eqn:E.
  - exists b. split; [lia|]. cbn [app scan_digits]. rewrite digit_val_char by (auto; lia). reflexivity.
  - destruct f as [|f].
    { change (Z.of_nat 1) with 1 in N. rewrite Z.pow_1_r in N. lia. }
    assert (N' : 0 <= n / b < b ^ Z.of_nat (S f)).
    { split; [apply Z.div_pos; lia|]. apply Z.div_lt_upper_bound; [lia|].
      replace (Z.of_nat (S (S f))) with (Z.of_nat (S f) + 1) in N by lia.
      rewrite Z.pow_add_r, Z.pow_1_r in N by lia. lia. }
    destruct (IH (n / b) acc any ([digit_char (n mod b)] ++ tail)) as (k & K & R); [lia|auto|].
    rewrite <- app_assoc, R. exists (k * b). split; [nia|]. cbn [app scan_digits].
    rewrite digit_val_char by (auto; apply Z.mod_pos_bound; lia).
    f_equal. pose proof (Z.div_mod n b ltac:(lia)). lia.
Qed.

Lemma print_head b : okbase b -> forall f n, (0 < f)%nat -> 0 <= n < b ^ Z.of_nat f ->
  exists d l, print_base f b n = digit_char d :: l /\ 0 <= d < b /\ (d = 0 -> l = []).
Proof.
  intros B. assert (B2 : 2 <= b) by (destruct B; lia).
  induction f as [|f IH]; intros n F N; [lia|].
  cbn [print_base]. destruct (n <? b) eqn:E.
  - exists n, []. split; auto. split; auto. lia.
  - destruct f as [|f].
    { change (Z.of_nat 1) with 1 in N. rewrite Z.pow_1_r in N. lia. }
    assert (N' : 0 <= n / b < b ^ Z.of_nat (S f)).
    { split; [apply Z.div_pos; lia|]. apply Z.div_lt_upper_bound; [lia|].
      replace (Z.of_nat (S (S f))) with (Z.of_nat (S f) + 1) in N by lia.
      rewrite Z.pow_add_r, Z.pow_1_r in N by lia. lia. }
    destruct (IH (n / b)) as (d & l & P & D & D0); [lia|auto|].
    exists d, (l ++ [digit_char (n mod b)]). rewrite P. split; auto. split; auto.
    intros ->. rewrite (D0 eq_refl) in P.
    (* a number that is not a digit has a positive leading part *)
    exfalso.
    destruct (scan_digits_print b B (S f) (n / b) 0 false []) as (k & _ & Q); [lia|auto|].
    rewrite P in Q. cbn [app scan_digits] in Q. rewrite digit_val_char in Q by (auto; lia).
    cbn [scan_digits] in Q. inversion Q as [Q1].
    assert (n / b = 0) by lia. apply Z.div_small_iff in H; lia.
Qed.

Lemma scan_num_print b n c rest : okbase b -> 0 <= n < 2 ^ 64 ->
  digit_val b c = None -> c <> 120 -> c <> 88 ->
  scan_num b (print_base 64 b n ++ c :: rest) = Some (n, c :: rest).
Proof.
  intros B N C X1 X2.
  assert (N' : 0 <= n < b ^ Z.of_nat 64).
  { split; [lia|]. apply Z.lt_le_trans with (2 ^ 64); [lia|].
    change (Z.of_nat 64) with 64. apply Z.pow_le_mono_l. destruct B; lia. }
  destruct (print_head b B 64 n) as (d & l & P & D & D0); [lia|auto|].
  assert (HS : forall tl, skip_ws (digit_char d :: tl) = digit_char d :: tl).
  { intros tl. cbn. assert (is_space (digit_char d) = false) as ->; [|reflexivity].
    unfold is_space, digit_char. destruct (d <? 10) eqn:E; destruct B; subst; lia. }
  assert (Q : scan_digits b 0 false (print_base 64 b n ++ c :: rest) = Some (n, c :: rest)).
  { destruct (scan_digits_print b B 64 n 0 false (c :: rest)) as (k & _ & Q); [lia|auto|].
    rewrite Q. cbn [scan_digits]. rewrite C. reflexivity. }
  unfold scan_num. rewrite P in *. cbn [app] in *. rewrite HS. cbv zeta.
  assert (M : digit_char d <> 45 /\ digit_char d <> 43).
  { unfold digit_char. destruct (d <? 10) eqn:E; lia. }
  assert (E1 : match digit_char d :: l ++ c :: rest with
     | 45 :: s' => (true, s') | 43 :: s' => (false, s')
     | _ => (false, digit_char d :: l ++ c :: rest) end = (false, digit_char d :: l ++ c :: rest)).
  { unfold digit_char in *.
    assert (G : forall z (tl : list Z), z <> 45 -> z <> 43 ->
      match z :: tl with 45 :: s' => (true, s') | 43 :: s' => (false, s') | _ => (false, z :: tl) end
      = (false, z :: tl)).
    { clear. intros z tl H1 H2. destruct z as [|p|p]; auto.
      do 6 (destruct p as [p|p|]; auto); congruence. }
    apply G; tauto. }
  rewrite E1. cbv iota beta.
  assert (E2 : (if b =? 16 then
             match digit_char d :: l ++ c :: rest with
             | 48 :: 120 :: s' => s' | 48 :: 88 :: s' => s' | _ => digit_char d :: l ++ c :: rest end
           else digit_char d :: l ++ c :: rest) = digit_char d :: l ++ c :: rest).
  { destruct (b =? 16) eqn:EB; auto. destruct (Z.eq_dec d 0) as [->|ND].
    - rewrite (D0 eq_refl). cbn [app]. change (digit_char 0) with 48.
      clear - X1 X2. destruct c as [|p|p]; auto.
      do 7 (destruct p as [p|p|]; auto); congruence.
    - assert (digit_char d <> 48) by (unfold digit_char; destruct (d <? 10); lia).
      revert H. generalize (digit_char d) as z. clear. intros z H.
      destruct z as [|p|p]; auto. do 6 (destruct p as [p|p|]; auto); congruence. }
  rewrite E2, Q. assert (w64 <=? n = false) as ->; [|reflexivity].
  change w64 with (2 ^ 64). lia.
Qed.

Lemma ndig c : c = 10 \/ c = 45 \/ c = 58 -> forall b, digit_val b c = None.
Proof. intros [->|[->| ->]] b; reflexivity. Qed.

Definition key_ok (n : Z) : Prop := 0 <= n < 2 ^ 64.

Lemma scan_hex n c rest : key_ok n -> c = 10 \/ c = 45 \/ c = 58 ->
  scan_num 16 (print_hex n ++ c :: rest) = Some (n, c :: rest).
Proof. intros. apply scan_num_print; unfold okbase; auto; [apply ndig; auto|lia|lia]. Qed.
Lemma scan_dec n c rest : key_ok n -> c = 10 \/ c = 45 \/ c = 58 ->
  scan_num 10 (print_dec n ++ c :: rest) = Some (n, c :: rest).
Proof. intros. apply scan_num_print; unfold okbase; auto; [apply ndig; auto|lia|lia]. Qed.

(** what may follow a record: the first byte is not white space, or we do not
    care *)
Definition scans {K} (scan : list Z -> option ((K * Z) * list Z)) (w : K * Z -> list Z)
  (ok : K * Z -> Prop) : Prop :=
  forall e rest, ok e -> scan (w e ++ rest) = Some (e, skip_ws rest).

Definition pair_ok (e : (Z * Z) * Z) : Prop :=
  key_ok (fst (fst e)) /\ key_ok (snd (fst e)) /\ key_ok (snd e).
Definition addr_ok (e : Z * Z) : Prop := key_ok (fst e) /\ key_ok (snd e).

Lemma scans_range : scans scan_range write_range pair_ok.
Proof.
  intros [[a b] c] rest (A & B & C). cbn [fst snd] in *.
  unfold write_range, scan_range; cbn [fst snd]. rewrite <- !app_assoc. cbn [app].
  rewrite scan_hex by (auto; unfold c_minus; auto). cbn [optbind scan_lit].
  rewrite Z.eqb_refl. cbn [optbind].
  rewrite scan_hex by (auto; unfold c_colon; auto). cbn [optbind scan_lit].
  rewrite Z.eqb_refl. cbn [optbind].
  rewrite scan_dec by (auto; unfold c_nl; auto). reflexivity.
Qed.
Lemma scans_branch : scans scan_branch write_branch pair_ok.
Proof.
  intros [[a b] c] rest (A & B & C). cbn [fst snd] in *.
  unfold write_branch, scan_branch; cbn [fst snd]. rewrite <- !app_assoc. cbn [app].
  rewrite scan_hex by (auto; unfold c_minus; auto). cbn [optbind scan_lit].
  rewrite Z.eqb_refl. cbn [optbind scan_lit]. rewrite Z.eqb_refl. cbn [optbind].
  rewrite scan_hex by (auto; unfold c_colon; auto). cbn [optbind scan_lit].
  rewrite Z.eqb_refl. cbn [optbind].
  rewrite scan_dec by (auto; unfold c_nl; auto). reflexivity.
Qed.
Lemma scans_addr : scans scan_addr write_addr addr_ok.
Proof.
  intros [a c] rest (A & C). cbn [fst snd] in *.
  unfold write_addr, scan_addr; cbn [fst snd]. rewrite <- !app_assoc. cbn [app].
  rewrite scan_hex by (auto; unfold c_colon; auto). cbn [optbind scan_lit].
  rewrite Z.eqb_refl. cbn [optbind].
  rewrite scan_dec by (auto; unfold c_nl; auto). reflexivity.
Qed.

Lemma skip_ws_idem s : skip_ws (skip_ws s) = skip_ws s.
Proof. induction s as [|c s IH]; cbn; auto. destruct (is_space c) eqn:E; auto. cbn. rewrite E. auto. Qed.

(** scanning starts by skipping white space *)
Definition ws_insensitive {X} (scan : list Z -> option X) : Prop :=
  forall s, scan (skip_ws s) = scan s.
Lemma scan_num_ws b : ws_insensitive (scan_num b).
Proof. intros s. unfold scan_num. rewrite skip_ws_idem. reflexivity. Qed.
Lemma scan_range_ws : ws_insensitive scan_range.
Proof. intros s. unfold scan_range. rewrite scan_num_ws. reflexivity. Qed.
Lemma scan_addr_ws : ws_insensitive scan_addr.
Proof. intros s. unfold scan_addr. rewrite scan_num_ws. reflexivity. Qed.
Lemma scan_branch_ws : ws_insensitive scan_branch.
Proof. intros s. unfold scan_branch. rewrite scan_num_ws. reflexivity. Qed.
Lemma scan_count_ws : ws_insensitive scan_count.
Proof. intros s. unfold scan_count. rewrite scan_num_ws. reflexivity. Qed.

Section Read.
  Context {K : Type} (eqb : K -> K -> bool) (scan : list Z -> option ((K * Z) * list Z))
          (w : K * Z -> list Z) (ok : K * Z -> Prop).
  Hypothesis SC : scans scan w ok.
  Hypothesis WS : ws_insensitive scan.

  Lemma read_records_ok l : forall i m rest, Forall ok l -> i + zlen l < 2 ^ 31 ->
    exists r', read_records eqb scan (length l) i m (skip_ws (flat_map w l ++ rest))
      = Ok (madd_all eqb l m, Some r') /\ skip_ws r' = skip_ws rest.
  Proof.
    induction l as [|e l IH]; intros i m rest F B; cbn [length read_records flat_map].
    - exists (skip_ws rest). split; [reflexivity|apply skip_ws_idem].
    - inversion F as [|? ? Oe Fl]; subst. rewrite zlen_cons in B. pose proof (zlen_nonneg l).
      rewrite WS, <- app_assoc, SC by auto.
      assert (i =? 2 ^ 31 - 1 = false) as -> by lia.
      destruct (IH (i + 1) (madd eqb m e) rest Fl ltac:(lia)) as (r' & R & Q).
      rewrite R. exists r'. auto.
  Qed.

  Lemma read_section_ok l m pre rest : Forall ok l -> zlen l < 2 ^ 31 ->
    skip_ws pre = skip_ws (print_dec (zlen l) ++ [c_nl] ++ flat_map w l ++ rest) ->
    exists r', read_section eqb scan m pre = Ok (madd_all eqb l m, Some r')
               /\ skip_ws r' = skip_ws rest.
  Proof.
    intros F B E. unfold read_section. rewrite <- (scan_count_ws pre), E, scan_count_ws.
    unfold scan_count. cbn [app]. pose proof (zlen_nonneg l).
    rewrite scan_dec; [|unfold key_ok; lia|unfold c_nl; auto]. cbn [optbind].
    change (skip_ws (c_nl :: flat_map w l ++ rest)) with (skip_ws (flat_map w l ++ rest)).
    replace (Z.to_nat (zlen l)) with (length l) by (unfold zlen; lia).
    apply read_records_ok; auto. 
  Qed.
End Read.

Lemma Append_Write m aux s :
  Forall pair_ok (sa_range m) -> Forall addr_ok (sa_addr m) -> Forall pair_ok (sa_branch m) ->
  zlen (sa_range m) < 2 ^ 31 -> zlen (sa_addr m) < 2 ^ 31 -> zlen (sa_branch m) < 2 ^ 31 ->
  Append (Write m aux) s = Ok (Merge s m, true).
Proof.
  intros F1 F2 F3 B1 B2 B3. unfold Append.
  destruct (read_section_ok pair_eqb scan_range write_range pair_ok scans_range scan_range_ws
    (sa_range m) (sa_range s) (Write m aux) _ F1 B1 eq_refl) as (r1 & R1 & Q1).
  rewrite R1. cbn [obind].
  destruct (read_section_ok Z.eqb scan_addr write_addr addr_ok scans_addr scan_addr_ws
    (sa_addr m) (sa_addr s) r1 _ F2 B2 Q1) as (r2 & R2 & Q2).
  rewrite R2. cbn [obind].
  destruct (read_section_ok pair_eqb scan_branch write_branch pair_ok scans_branch scan_branch_ws
    (sa_branch m) (sa_branch s) r2 _ F3 B3 Q2) as (r3 & R3 & Q3).
  rewrite R3. reflexivity.
Qed.

(** * Count maps *)
Section Maps.
  Context {K : Type} (eqb : K -> K -> bool).
  Hypothesis sp : forall a b, reflect (a = b) (eqb a b).

  Definition cnt (m : list (K * Z)) (k : K) : Z :=
    match aget eqb k m with Some c => c | None => 0 end.

  (** sum of the counts that a list of (key, count) pairs has for [k] *)
  Definition sum_at (k : K) (l : list (K * Z)) : Z :=
    fold_right (fun e a => (if eqb k (fst e) then snd e else 0) + a) 0 l.

  Lemma cnt_madd m e k : cnt (madd eqb m e) k
    = if eqb k (fst e) then u64 (cnt m (fst e) + snd e) else cnt m k.
  Proof.
    unfold cnt, madd. rewrite (aget_aset eqb sp). destruct (eqb k (fst e)); reflexivity.
  Qed.

  Lemma cnt_madd_all l : forall m k, u64 (cnt (madd_all eqb l m) k) = u64 (cnt m k + sum_at k l).
  Proof.
    induction l as [|e l IH]; intros m k; cbn [madd_all fold_left sum_at fold_right].
    - rewrite Z.add_0_r. reflexivity.
    - fold (madd_all eqb l (madd eqb m e)). rewrite IH, cnt_madd.
      fold (sum_at k l). destruct (sp k (fst e)) as [->|N].
      + unfold u64. rewrite Zplus_mod_idemp_l. f_equal. lia.
      + f_equal.
  Qed.

  Lemma cnt_madd_all_small l m k : (forall k, 0 <= cnt m k < 2 ^ 64) ->
    cnt (madd_all eqb l m) k = u64 (cnt m k + sum_at k l).
  Proof.
    intros B. rewrite <- cnt_madd_all. symmetry. apply Z.mod_small.
    assert (G : forall l m, (forall k, 0 <= cnt m k < 2 ^ 64) ->
              forall k, 0 <= cnt (madd_all eqb l m) k < 2 ^ 64).
    { clear - sp. induction l as [|e l IH]; intros m B; [exact B|].
      cbn [madd_all fold_left]. apply IH. intros k. rewrite cnt_madd.
      destruct (eqb k (fst e)); auto. unfold u64. apply Z.mod_pos_bound. unfold w64; lia. }
    exact (G l m B k).
  Qed.

  Lemma keys_madd_all l : forall m k,
    In k (akeys (madd_all eqb l m)) <-> In k (akeys m) \/ In k (akeys l).
  Proof.
    induction l as [|e l IH]; intros m k; cbn [madd_all fold_left].
    - cbn [In akeys map]. tauto.
    - change (fold_left (madd eqb) l (madd eqb m e)) with (madd_all eqb l (madd eqb m e)).
      rewrite IH. unfold madd. rewrite (In_akeys_aset eqb sp).
      change (akeys (e :: l)) with (fst e :: akeys l). cbn [In]. intuition.
  Qed.

  Lemma NoDup_madd_all l : forall m, NoDup (akeys m) -> NoDup (akeys (madd_all eqb l m)).
  Proof.
    induction l as [|e l IH]; intros m N; cbn [madd_all fold_left]; auto.
    apply IH. unfold madd. apply (NoDup_akeys_aset eqb sp). auto.
  Qed.

  Lemma sum_at_NoDup k l : NoDup (akeys l) -> sum_at k l = cnt l k.
  Proof.
    induction l as [|[k' c] l IH]; intros N; [reflexivity|].
    cbn [akeys map] in N. inversion N; subst. cbn [sum_at fold_right fst snd]. fold (sum_at k l).
    unfold cnt in *. cbn [aget]. rewrite (IH ltac:(auto)).
    destruct (sp k k') as [->|NE]; [|lia].
    assert (aget eqb k' l = None) as -> by (apply (aget_None_iff eqb sp); auto). lia.
  Qed.

  Lemma sum_at_perm k l l' : Permutation l l' -> sum_at k l = sum_at k l'.
  Proof. induction 1; cbn [sum_at fold_right] in *; try fold (sum_at k l) in *; try fold (sum_at k l') in *; lia. Qed.

  Lemma madd_fresh m e : ~ In (fst e) (akeys m) -> 0 <= snd e < 2 ^ 64 -> madd eqb m e = m ++ [e].
  Proof.
    intros N B. unfold madd. rewrite (proj2 (aget_None_iff eqb sp (fst e) m) N).
    rewrite Z.add_0_l. assert (u64 (snd e) = snd e) as -> by (apply Z.mod_small; exact B).
    destruct e as [k c]. cbn [fst snd] in *. clear B.
    induction m as [|[k' c'] m IH]; cbn [aset app]; auto.
    cbn [akeys map In fst] in N. destruct (sp k k'); [subst; tauto|]. rewrite IH by tauto. reflexivity.
  Qed.

  Lemma madd_all_fresh l : forall m, NoDup (akeys (m ++ l)) -> Forall (fun e => 0 <= snd e < 2 ^ 64) l ->
    madd_all eqb l m = m ++ l.
  Proof.
    induction l as [|e l IH]; intros m N F; cbn [madd_all fold_left]; [rewrite app_nil_r; auto|].
    inversion F; subst.
    rewrite madd_fresh; auto.
    - change (fold_left (madd eqb) l (m ++ [e])) with (madd_all eqb l (m ++ [e])).
      rewrite IH; rewrite <- ?app_assoc; auto.
    - unfold akeys in *. rewrite map_app in N. cbn [map] in N.
      apply NoDup_remove_2 in N. intros I. apply N. apply in_or_app. auto.
  Qed.
End Maps.

Lemma sum_u64_eq l : forall a, fold_left (fun a c => u64 (a + c)) l (u64 a)
  = u64 (a + fold_right Z.add 0 l).
Proof.
  induction l as [|x l IH]; intros a; cbn [fold_left fold_right].
  - rewrite Z.add_0_r. reflexivity.
  - assert (u64 (u64 a + x) = u64 (a + x)) as -> by (unfold u64; apply Zplus_mod_idemp_l).
    rewrite IH. f_equal. lia.
Qed.
Lemma sum_u64_spec l : sum_u64 l = u64 (fold_right Z.add 0 l).
Proof. exact (sum_u64_eq l 0). Qed.

Section Totals.
  Context {K : Type} (eqb : K -> K -> bool).
  Hypothesis sp : forall a b, reflect (a = b) (eqb a b).
  Definition vsum (m : list (K * Z)) : Z := fold_right Z.add 0 (map snd m).

  Lemma vsum_aset m k v : vsum (aset eqb k v m) = vsum m - cnt eqb m k + v.
  Proof.
    unfold vsum, cnt. induction m as [|[k' c] m IH]; cbn [aset aget map fold_right snd]; [lia|].
    destruct (eqb k k'); cbn [map fold_right snd]; [lia|]. rewrite IH. lia.
  Qed.
  Lemma vsum_madd m e : u64 (vsum (madd eqb m e)) = u64 (vsum m + snd e).
  Proof.
    unfold madd. rewrite vsum_aset. fold (cnt eqb m (fst e)).
    replace (vsum m - cnt eqb m (fst e) + u64 (cnt eqb m (fst e) + snd e))
      with (u64 (cnt eqb m (fst e) + snd e) + (vsum m - cnt eqb m (fst e))) by lia.
    unfold u64 at 1 2. rewrite Zplus_mod_idemp_l. unfold u64. f_equal. lia.
  Qed.
  Lemma vsum_madd_all l : forall m, u64 (vsum (madd_all eqb l m)) = u64 (vsum m + vsum l).
  Proof.
    induction l as [|e l IH]; intros m; cbn [madd_all fold_left].
    - unfold vsum; cbn. rewrite Z.add_0_r. reflexivity.
    - change (fold_left (madd eqb) l (madd eqb m e)) with (madd_all eqb l (madd eqb m e)).
      rewrite IH.
      unfold u64 at 1. rewrite <- Zplus_mod_idemp_l. fold (u64 (vsum (madd eqb m e))).
      rewrite vsum_madd. unfold u64. rewrite Zplus_mod_idemp_l. f_equal.
      unfold vsum; cbn. lia.
  Qed.
  Lemma madd_all_nil_iff l m : madd_all eqb l m = [] <-> l = [] /\ m = [].
  Proof.
    split; [|intros [-> ->]; reflexivity]. intros E.
    destruct l as [|[k c] l].
    - auto.
    - exfalso. assert (I : In k (akeys (madd_all eqb ((k, c) :: l) m))).
      { apply (keys_madd_all eqb sp). right. cbn; auto. }
      rewrite E in I. destruct I.
  Qed.
End Totals.

Lemma pair_eqb_spec : forall a b, reflect (a = b) (pair_eqb a b).
Proof.
  intros [a1 a2] [b1 b2]. unfold pair_eqb; cbn.
  destruct (a1 =? b1) eqn:E1, (a2 =? b2) eqn:E2; cbn; constructor; try (f_equal; lia);
    intros Q; inversion Q; lia.
Qed.
