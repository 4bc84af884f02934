From Verif Require Import Base GcovModel GcovSpec.
Ltac Zify.zify_post_hook ::= Z.div_mod_to_equations.

Definition rwf (st : rstate) : Prop := 0 <= r_off st <= zlen (r_buf st) /\ 0 <= r_alloc st.

Lemma rwf_open alloc c : 0 <= alloc -> rwf (gcov_open_read alloc c).
Proof. intros; unfold rwf, gcov_open_read; change (zlen (@nil byte)) with 0; cbn; lia. Qed.
Lemma pending_open alloc c : pending (gcov_open_read alloc c) = c.
Proof. reflexivity. Qed.

Lemma zlen_skipn {A} n (l : list A) : zlen (skipn n l) = Z.max 0 (zlen l - Z.of_nat n).
Proof. unfold zlen; rewrite skipn_length; lia. Qed.
Lemma zlen_firstn {A} n (l : list A) : zlen (firstn n l) = Z.min (Z.of_nat n) (zlen l).
Proof. unfold zlen; rewrite firstn_length; lia. Qed.

Lemma skipn_skipn {A} (a b : nat) (l : list A) : skipn a (skipn b l) = skipn (b + a) l.
Proof.
  revert l; induction b as [|b IH]; intros l; [reflexivity|].
  destruct l as [|x l]; cbn [skipn Nat.add]; [destruct a; reflexivity|apply IH].
Qed.

Lemma read_bytes_refines n st :
  rwf st -> 0 <= n < block_size ->
  exists r st', gcov_read_bytes n st = Ok (r, st') /\ rwf st' /\
                stream_read n (pending st) = (r, pending st').
Proof.
  intros [Hoff Hal] Hn. unfold gcov_read_bytes.
  set (b := r_buf st) in *. set (o := r_off st) in *. set (f := r_file st).
  assert (Hbs : (n <? block_size) = true) by lia. rewrite Hbs.
  destruct (zlen b - o <? n) eqn:Hex.
  - set (kept := skipn (Z.to_nat o) b).
    assert (Hk : zlen kept = zlen b - o)
      by (unfold kept; rewrite zlen_skipn; lia).
    set (al := if r_alloc st <? zlen kept + n then _ else _).
    assert (Hal2 : zlen kept + n <= al /\ 0 <= al).
    { unfold al, gcov_allocate, block_size in *.
      destruct (r_alloc st <? zlen kept + n) eqn:E1;
        destruct (r_alloc st =? 0) eqn:E2; lia. }
    set (want := Z.to_nat (al - zlen kept)).
    assert (Hpend : pending st = kept ++ f) by reflexivity.
    pose proof (zlen_nonneg kept). pose proof (zlen_nonneg f).
    destruct (zlen (kept ++ firstn want f) <? n) eqn:Hshort.
    + eexists _, _. split; [reflexivity|]. split.
      * unfold rwf; change (zlen (@nil byte)) with 0; cbn; lia.
      * rewrite zlen_app, zlen_firstn in Hshort.
        unfold stream_read. rewrite Hpend, zlen_app.
        assert (E : (zlen kept + zlen f <? n) = true) by lia. rewrite E.
        unfold pending; cbn [r_buf r_off r_file].
        assert (Hs : skipn want f = []).
        { apply skipn_all2. unfold zlen in *. lia. }
        rewrite Hs. reflexivity.
    + eexists _, _. split; [reflexivity|].
      rewrite zlen_app, zlen_firstn in Hshort.
      split.
      * unfold rwf; cbn. rewrite zlen_app, zlen_firstn. lia.
      * unfold stream_read. rewrite Hpend, zlen_app.
        assert (E : (zlen kept + zlen f <? n) = false) by lia. rewrite E.
        unfold pending; cbn [r_buf r_off r_file].
        assert (Hsplit : kept ++ f = (kept ++ firstn want f) ++ skipn want f)
          by (rewrite <- app_assoc, firstn_skipn; reflexivity).
        rewrite Hsplit. rewrite firstn_app, skipn_app.
        assert (Hz : (Z.to_nat n - length (kept ++ firstn want f) = 0)%nat).
        { rewrite app_length, firstn_length. unfold zlen in *. lia. }
        rewrite Hz. cbn [firstn skipn]. rewrite app_nil_r. reflexivity.
  - eexists _, _. split; [reflexivity|]. split.
    + unfold rwf; cbn. fold b. fold o. lia.
    + unfold stream_read.
      assert (Hpend : pending st = skipn (Z.to_nat o) b ++ f) by reflexivity.
      pose proof (zlen_nonneg f).
      rewrite Hpend, zlen_app, zlen_skipn.
      assert (E : (Z.max 0 (zlen b - Z.of_nat (Z.to_nat o)) + zlen f <? n) = false) by lia.
      rewrite E. unfold pending; cbn [r_buf r_off r_file].
      rewrite firstn_app, skipn_app.
      assert (Hz : (Z.to_nat n - length (skipn (Z.to_nat o) b) = 0)%nat).
      { rewrite skipn_length. unfold zlen in *. lia. }
      rewrite Hz. cbn [firstn skipn]. rewrite app_nil_r, skipn_skipn.
      replace (Z.to_nat o + Z.to_nat n)%nat with (Z.to_nat (o + n)) by lia.
      reflexivity.
Qed.

Lemma buffered_reads_refine ns st :
  rwf st -> Forall (fun n => 0 <= n < 16384) ns ->
  exists st', buffered_reads ns st = Ok (fst (stream_reads ns (pending st)), st') /\
              rwf st' /\ pending st' = snd (stream_reads ns (pending st)).
Proof.
  revert st; induction ns as [|n ns IH]; intros st Hw Hns.
  - exists st. cbn. auto.
  - inversion Hns as [|? ? Hn Hns']; subst.
    destruct (read_bytes_refines n st Hw) as (r & st1 & Hr & Hw1 & Hs);
      [unfold block_size; lia|].
    destruct (IH st1 Hw1 Hns') as (st2 & Hr2 & Hw2 & Hp2).
    exists st2. cbn [buffered_reads stream_reads]. rewrite Hr, Hs. cbn [obind].
    rewrite Hr2. cbn [obind].
    destruct (stream_reads ns (pending st1)) as [rs s2]. cbn [fst snd] in *. auto.
Qed.

(** Reading a known prefix of the stream. *)
Lemma read_prefix n st pre rest :
  rwf st -> n < block_size -> zlen pre = n -> pending st = pre ++ rest ->
  exists st', gcov_read_bytes n st = Ok (Some pre, st') /\ rwf st' /\ pending st' = rest.
Proof.
  intros Hw Hn Hl Hp. pose proof (zlen_nonneg pre).
  destruct (read_bytes_refines n st Hw) as (r & st1 & Hr & Hw1 & Hs); [lia|].
  unfold stream_read in Hs. rewrite Hp, zlen_app in Hs. pose proof (zlen_nonneg rest).
  destruct (zlen pre + zlen rest <? n) eqn:E; [lia|].
  assert (Hnat : Z.to_nat n = length pre) by (unfold zlen in *; lia).
  rewrite Hnat in Hs. rewrite firstn_app, skipn_app in Hs.
  rewrite firstn_all, skipn_all, Nat.sub_diag in Hs. cbn [firstn skipn] in Hs.
  rewrite app_nil_r in Hs. cbn [app] in Hs.
  injection Hs as Hs1 Hs2. subst r. exists st1. auto.
Qed.

Lemma get32_le32 v : 0 <= v < w32 -> get32 (le32 v) = v.
Proof. intros H. unfold le32, get32, w32 in *. lia. Qed.

Lemma zlen_le32 v : zlen (le32 v) = 4.
Proof. reflexivity. Qed.

Lemma read_unsigned_spec v st rest :
  rwf st -> 0 <= v < w32 -> pending st = le32 v ++ rest ->
  exists st', gcov_read_unsigned st = Ok (v, st') /\ rwf st' /\ pending st' = rest.
Proof.
  intros Hw Hv Hp.
  destruct (read_prefix 4 st (le32 v) rest Hw) as (st1 & Hr & Hw1 & Hp1);
    [unfold block_size; lia|reflexivity|exact Hp|].
  exists st1. unfold gcov_read_unsigned. rewrite Hr. cbn [obind].
  rewrite get32_le32 by exact Hv. auto.
Qed.

Lemma read_counter_spec v st rest :
  rwf st -> 0 <= v < w64 ->
  pending st = le32 (u32 v) ++ le32 (u32 (Z.shiftr v 32)) ++ rest ->
  exists st', gcov_read_counter st = Ok (v, st') /\ rwf st' /\ pending st' = rest.
Proof.
  intros Hw Hv Hp.
  rewrite app_assoc in Hp.
  destruct (read_prefix 8 st _ rest Hw ltac:(unfold block_size; lia) (eq_refl : zlen (le32 (u32 v) ++ le32 (u32 (Z.shiftr v 32))) = 8) Hp) as (st1 & Hr & Hw1 & Hp1).
  exists st1. unfold gcov_read_counter. rewrite Hr. cbn [obind].
  split; [|auto].
  assert (Hf : firstn 4 (le32 (u32 v) ++ le32 (u32 (Z.shiftr v 32))) = le32 (u32 v)) by reflexivity.
  assert (Hs : skipn 4 (le32 (u32 v) ++ le32 (u32 (Z.shiftr v 32))) = le32 (u32 (Z.shiftr v 32)))
    by reflexivity.
  rewrite Hf, Hs.
  assert (Hhi : Z.shiftr v 32 = v / w32) by (rewrite Z.shiftr_div_pow2 by lia; reflexivity).
  rewrite Hhi.
  assert (H1 : 0 <= u32 v < w32) by (unfold u32, w32; lia).
  assert (H2 : u32 (v / w32) = v / w32).
  { unfold u32, w32, w64 in *. apply Z.mod_small. lia. }
  rewrite H2, !get32_le32 by (unfold u32, w32, w64 in *; lia).
  assert (H3 : u64 (Z.shiftl (v / w32) 32) = Z.shiftl (v / w32) 32).
  { rewrite Z.shiftl_mul_pow2 by lia. change (2 ^ 32) with w32.
    unfold u64, w32, w64 in *. apply Z.mod_small. lia. }
  rewrite H3.
  rewrite lor_add_disjoint by (change (2 ^ 32) with w32; lia).
  change (2 ^ 32) with w32. f_equal. f_equal. unfold u32, w32 in *. lia.
Qed.

Lemma cstr_app s tl : Forall (fun b => 0 < b < 256) s -> cstr (s ++ 0 :: tl) = Some s.
Proof.
  induction s as [|b s IH]; intros H; cbn [app cstr].
  - reflexivity.
  - inversion H; subst. destruct (b =? 0) eqn:E; [lia|]. rewrite IH by assumption. reflexivity.
Qed.

Lemma read_string_spec version s st rest :
  rwf st -> gval_ok version (VString s) ->
  pending st = gcov_write_string version s [] ++ rest ->
  exists st', gcov_read_string version st = Ok (Some s, st') /\ rwf st' /\ pending st' = rest.
Proof.
  intros Hw Hok Hp. cbn [gval_ok] in Hok. destruct Hok as [Hs Hlen]. unfold gcov_write_string in Hp. unfold gcov_read_string.
  pose proof (zlen_nonneg s).
  destruct (2 <=? version) eqn:Hver; rewrite ?Hver in Hp, Hlen; cbn [app] in Hp.
  - rewrite <- !app_assoc in Hp.
    assert (Hu : u32 (zlen s + 1) = zlen s + 1) by (unfold u32, w32; lia).
    rewrite Hu in Hp.
    destruct (read_unsigned_spec (zlen s + 1) st _ Hw ltac:(unfold w32; lia) Hp) as (st1 & Hr & Hw1 & Hp1).
    rewrite Hr. cbn [obind].
    destruct (zlen s + 1 =? 0) eqn:E0; [lia|].
    rewrite app_assoc in Hp1.
    destruct (read_prefix (zlen s + 1) st1 (s ++ [0]) rest Hw1) as (st2 & Hr2 & Hw2 & Hp2);
      [unfold block_size; lia|rewrite zlen_app; reflexivity|exact Hp1|].
    rewrite Hr2. cbn [obind]. rewrite cstr_app by exact Hs. eauto.
  - set (al := Z.shiftr (zlen s + 4) 2) in *.
    assert (Hal : al = (zlen s + 4) / 4) by (unfold al; rewrite Z.shiftr_div_pow2 by lia; reflexivity).
    rewrite <- !app_assoc in Hp.
    assert (Hu : u32 al = al) by (unfold u32, w32; lia).
    rewrite Hu in Hp.
    destruct (read_unsigned_spec al st _ Hw ltac:(unfold w32; lia) Hp) as (st1 & Hr & Hw1 & Hp1).
    rewrite Hr. cbn [obind].
    destruct (al =? 0) eqn:E0; [lia|].
    assert (Hu4 : u32 (al * 4) = al * 4) by (unfold u32, w32; lia). rewrite Hu4.
    rewrite app_assoc in Hp1.
    destruct (read_prefix (al * 4) st1 (s ++ repeat 0 (Z.to_nat (4 * al - zlen s))) rest Hw1)
      as (st2 & Hr2 & Hw2 & Hp2);
      [unfold block_size; lia| |exact Hp1|].
    { rewrite zlen_app. unfold zlen at 2. rewrite repeat_length. lia. }
    rewrite Hr2. cbn [obind].
    destruct (Z.to_nat (4 * al - zlen s)) as [|k] eqn:Ek; [lia|].
    cbn [repeat]. rewrite cstr_app by exact Hs. eauto.
Qed.

Lemma write_val_app version v out : write_val version v out = out ++ write_val version v [].
Proof.
  destruct v; cbn [write_val]; unfold gcov_write_unsigned, gcov_write_counter, gcov_write_string;
    try reflexivity.
  destruct (2 <=? version); reflexivity.
Qed.

Lemma write_vals_cons version v vs :
  write_vals version (v :: vs) = write_val version v [] ++ write_vals version vs.
Proof.
  unfold write_vals. cbn [fold_left].
  assert (G : forall vs out, fold_left (fun out v => write_val version v out) vs out
              = out ++ fold_left (fun out v => write_val version v out) vs []).
  { clear. induction vs as [|v vs IH]; intros out; cbn [fold_left].
    - rewrite app_nil_r; reflexivity.
    - rewrite IH, (IH (write_val version v [])), (write_val_app _ _ out), app_assoc. reflexivity. }
  apply G.
Qed.

Lemma read_val_spec version v st rest :
  rwf st -> gval_ok version v -> pending st = write_val version v [] ++ rest ->
  exists st', read_val version (kind_of v) st = Ok (Some v, st') /\ rwf st' /\ pending st' = rest.
Proof.
  intros Hw Hv Hp. destruct v as [v|v|s]; cbn [read_val kind_of write_val gval_ok] in *.
  - unfold gcov_write_unsigned in Hp. cbn [app] in Hp.
    assert (Hu : u32 v = v) by (unfold u32, w32; lia). rewrite Hu in Hp.
    destruct (read_unsigned_spec v st rest Hw ltac:(unfold w32; lia) Hp) as (st1 & Hr & ?).
    exists st1. rewrite Hr. auto.
  - unfold gcov_write_counter in Hp. cbn [app] in Hp. rewrite <- app_assoc in Hp.
    destruct (read_counter_spec v st rest Hw ltac:(unfold w64; lia) Hp) as (st1 & Hr & ?).
    exists st1. rewrite Hr. auto.
  - destruct (read_string_spec version s st rest Hw Hv Hp) as (st1 & Hr & ?).
    exists st1. rewrite Hr. auto.
Qed.

Lemma read_vals_spec version vs st rest :
  rwf st -> Forall (gval_ok version) vs -> pending st = write_vals version vs ++ rest ->
  exists st', read_vals version (map kind_of vs) st = Ok (map Some vs, st') /\
              rwf st' /\ pending st' = rest.
Proof.
  revert st; induction vs as [|v vs IH]; intros st Hw Hok Hp.
  - exists st. cbn in *. auto.
  - inversion Hok; subst. rewrite write_vals_cons, <- app_assoc in Hp.
    destruct (read_val_spec version v st _ Hw ltac:(assumption) Hp) as (st1 & Hr & Hw1 & Hp1).
    destruct (IH st1 Hw1 ltac:(assumption) Hp1) as (st2 & Hr2 & Hw2 & Hp2).
    exists st2. cbn [map read_vals]. rewrite Hr. cbn [obind]. rewrite Hr2. cbn [obind]. auto.
Qed.

Lemma round_trip version alloc vs :
  0 <= alloc -> Forall (gval_ok version) vs ->
  exists st', read_vals version (map kind_of vs) (gcov_open_read alloc (write_vals version vs))
              = Ok (map Some vs, st') /\ pending st' = [].
Proof.
  intros Ha Hok.
  destruct (read_vals_spec version vs (gcov_open_read alloc (write_vals version vs)) [])
    as (st' & Hr & Hw & Hp); [apply rwf_open; exact Ha|exact Hok| |eauto].
  rewrite pending_open, app_nil_r. reflexivity.
Qed.
