(** Proofs about prefetch hints: reading the file. *)
From Verif Require Import Base SymbolModel SampleModel SampleProofs PrefetchModel PrefetchSpec.
Import ListNotations.
Open Scope Z_scope.

Lemma white_space c : white c <-> is_space c = true.
Proof. unfold white, is_space. rewrite orb_true_iff, andb_true_iff, Z.eqb_eq, !Z.leb_le. tauto. Qed.
Lemma not_white c : ~ white c -> is_space c = false.
Proof. intros H. destruct (is_space c) eqn:E; auto. apply white_space in E. contradiction. Qed.

Lemma skip_white b : forall r, Forall white b -> skip_ws (b ++ r) = skip_ws r.
Proof.
  induction b as [|c b IH]; intros r H; [reflexivity|]. inversion H; subst. cbn [app skip_ws].
  rewrite (proj1 (white_space c)) by auto. auto.
Qed.
Lemma skip_not c r : is_space c = false -> skip_ws (c :: r) = c :: r.
Proof. intros H. cbn [skip_ws]. rewrite H. reflexivity. Qed.

Lemma digit_is b c d : b = 10 \/ b = 16 -> digit b c d -> digit_val b c = Some d.
Proof.
  intros B (R & H). unfold digit_val.
  destruct (Z.leb_spec 48 c), (Z.leb_spec c 57), (Z.leb_spec 97 c), (Z.leb_spec c 102), (Z.leb_spec 65 c), (Z.leb_spec c 70);
    cbn [andb]; try lia;
  match goal with |- (if ?x <? b then _ else _) = _ => destruct (Z.ltb_spec x b); [f_equal; lia|lia] end.
Qed.
Lemma digit_range b c d : b = 10 \/ b = 16 -> digit b c d -> 48 <= c <= 57 \/ 65 <= c <= 70 \/ 97 <= c <= 102.
Proof. intros B (R & H). lia. Qed.

Lemma scan_digits_app b l v : b = 10 \/ b = 16 -> number b l v ->
  forall acc any tail, scan_digits b acc any (l ++ tail) = scan_digits b (acc * b ^ zlen l + v) true tail.
Proof.
  intros B N. induction N as [c d D|l v c d N IH D]; intros acc any tail.
  - cbn [app scan_digits]. rewrite (digit_is b c d B D). unfold zlen. cbn [length]. rewrite Z.pow_1_r. reflexivity.
  - rewrite <- app_assoc, IH. cbn [app scan_digits]. rewrite (digit_is b c d B D). f_equal.
    unfold zlen. rewrite app_length. cbn [length]. rewrite Nat2Z.inj_add, Z.pow_add_r by lia. lia.
Qed.
Lemma number_head b l v : b = 10 \/ b = 16 -> number b l v ->
  0 <= v /\ exists c r, l = c :: r /\ (48 <= c <= 57 \/ 65 <= c <= 70 \/ 97 <= c <= 102).
Proof.
  intros B N. induction N as [c d D|l v c d N IH D].
  - split; [apply D|]. exists c, []. split; auto. eapply digit_range; eauto.
  - destruct IH as (P & c0 & r & -> & R). destruct D as (D & _). split; [nia|]. exists c0, (r ++ [c]). auto.
Qed.
(** The second character of a number is a digit too. *)
Lemma number_all b l v : b = 10 \/ b = 16 -> number b l v ->
  Forall (fun c => 48 <= c <= 57 \/ 65 <= c <= 70 \/ 97 <= c <= 102) l.
Proof.
  intros B N. induction N as [c d D|l v c d N IH D]; [constructor; [eapply digit_range; eauto|constructor]|].
  apply Forall_app. split; auto. constructor; [eapply digit_range; eauto|constructor].
Qed.

Lemma scan_num_line before pre ta a rest : Forall white before -> pre = [] \/ pre = [48; 120] -> number 16 ta a -> a < 2 ^ 64 ->
  scan_num 16 (before ++ pre ++ ta ++ 44 :: rest) = Some (a, 44 :: rest).
Proof.
  intros W P N A. unfold scan_num. rewrite skip_white by auto. change (16 =? 16) with true.
  assert (B : (16:Z) = 10 \/ (16:Z) = 16) by lia.
  destruct (number_head 16 ta a B N) as (A0 & c & r & E & R). pose proof (number_all 16 ta a B N) as ALL.
  assert (SD : scan_digits 16 0 false (ta ++ 44 :: rest) = Some (a, 44 :: rest)).
  { rewrite (scan_digits_app 16 ta a B N). cbn [scan_digits]. change (digit_val 16 44) with (@None Z). rewrite Z.mul_0_l. reflexivity. }
  assert (LE : (w64 <=? a) = false). { apply Z.leb_gt. exact A. }
  destruct P as [-> | ->]; cbn [app].
  - subst ta. cbn [app] in *. rewrite skip_not.
    2: { unfold is_space. destruct (Z.eqb_spec c 32), (Z.leb_spec 9 c), (Z.leb_spec c 13); auto; lia. }
    assert (HD : (match c :: r ++ 44 :: rest with 45 :: s' => (true, s') | 43 :: s' => (false, s') | _ => (false, c :: r ++ 44 :: rest) end)
      = (false, c :: r ++ 44 :: rest)).
    { destruct (Z.eq_dec c 45); [lia|]. destruct (Z.eq_dec c 43); [lia|]. clear -n n0.
      destruct c as [|p|p]; auto. do 6 (destruct p as [p|p|]; auto); congruence. }
    rewrite HD. clear HD. cbv beta iota.
    assert (HX : (match c :: r ++ 44 :: rest with 48 :: 120 :: s' | 48 :: 88 :: s' => s' | _ => c :: r ++ 44 :: rest end) = c :: r ++ 44 :: rest).
    { assert (X : forall x y, r ++ 44 :: rest = x :: y -> x <> 120 /\ x <> 88).
      { intros x y E. destruct r as [|x0 r]; cbn [app] in E; injection E as <- _; [lia|].
        inversion ALL as [|? ? _ ALL']; subst. inversion ALL' as [|? ? Q _]; subst. lia. }
      revert X. generalize (r ++ 44 :: rest) as t. intros t X. clear -X. destruct t as [|x y].
      - destruct c as [|p|p]; auto. do 6 (destruct p as [p|p|]; auto).
      - destruct (X x y eq_refl) as [X1 X2]. destruct c as [|p|p]; auto. do 6 (destruct p as [p|p|]; auto).
        destruct x as [|k|k]; auto. do 7 (destruct k as [k|k|]; auto); congruence. }
    rewrite HX, SD, LE. reflexivity.
  - rewrite skip_not by reflexivity. cbv beta iota. rewrite SD, LE. reflexivity.
Qed.

Lemma scan_int_line sign td vd d rest : number 10 td vd -> (sign = [] /\ d = vd \/ sign = [45] /\ d = - vd) ->
  - 2 ^ 63 <= d < 2 ^ 63 -> scan_int (sign ++ td ++ 44 :: rest) = Some (d, 44 :: rest).
Proof.
  intros N SG R. unfold scan_int. assert (B : (10:Z) = 10 \/ (10:Z) = 16) by lia.
  destruct (number_head 10 td vd B N) as (A0 & c & r & E & RC).
  assert (SD : scan_digits 10 0 false (td ++ 44 :: rest) = Some (vd, 44 :: rest)).
  { rewrite (scan_digits_app 10 td vd B N). cbn [scan_digits]. change (digit_val 10 44) with (@None Z). rewrite Z.mul_0_l. reflexivity. }
  destruct SG as [[-> ->]|[-> ->]]; cbn [app].
  - subst td. cbn [app] in *. rewrite skip_not.
    2: { unfold is_space. destruct (Z.eqb_spec c 32), (Z.leb_spec 9 c), (Z.leb_spec c 13); auto; lia. }
    assert (HD : (match c :: r ++ 44 :: rest with 45 :: s' => (true, s') | 43 :: s' => (false, s') | _ => (false, c :: r ++ 44 :: rest) end)
      = (false, c :: r ++ 44 :: rest)).
    { destruct (Z.eq_dec c 45); [lia|]. destruct (Z.eq_dec c 43); [lia|]. clear -n n0.
      destruct c as [|p|p]; auto. do 6 (destruct p as [p|p|]; auto); congruence. }
    rewrite HD, SD. rewrite Z.min_r by lia. reflexivity.
  - rewrite skip_not by reflexivity. cbv beta iota. rewrite SD. rewrite Z.max_r by lia. reflexivity.
Qed.

Lemma scan_run_app t : forall tail, Forall (fun c => ~ white c) t -> match tail with [] => True | c :: _ => white c end ->
  scan_run (t ++ tail) = (t, tail).
Proof.
  induction t as [|c t IH]; intros tail F H; cbn [app].
  - destruct tail as [|c tail]; [reflexivity|]. cbn [scan_run]. rewrite (proj1 (white_space c)) by auto. reflexivity.
  - inversion F; subst. cbn [scan_run]. rewrite not_white by auto. rewrite IH by auto. reflexivity.
Qed.

Lemma last_white t after : t <> [] -> Forall (fun c => ~ white c) t -> forall x s0 c, x ++ t ++ after = s0 ++ [c] -> white c -> after <> [].
Proof.
  intros NE F x s0 c E W ->. rewrite app_nil_r in E. destruct (exists_last NE) as (t0 & k & ->).
  rewrite app_assoc in E. apply app_inj_tail in E. destruct E as [_ ->]. apply Forall_app in F. destruct F as [_ F].
  inversion F; subst. contradiction.
Qed.

Lemma scan_line s h rest : line s h -> (rest = [] \/ exists s0 c, s = s0 ++ [c] /\ white c) ->
  scan_hint (s ++ rest) = Some (h, skip_ws rest).
Proof.
  intros L C. destruct L as [before pre a sign d t after ta td va vd W P NA LA SG ND LD NE FT WA ->].
  unfold scan_hint.
  assert (H : match after ++ rest with [] => True | c :: _ => white c end).
  { destruct C as [-> | (s0 & c & E & Wc)].
    - rewrite app_nil_r. destruct after as [|c after]; [exact Logic.I|]. inversion WA; auto.
    - assert (NA' : after <> []).
      { rewrite !app_assoc in E. rewrite <- (app_assoc _ t after) in E. eapply last_white; eauto. }
      destruct after as [|k after]; [congruence|]. cbn [app]. inversion WA; auto. }
  replace ((before ++ pre ++ ta ++ [44] ++ sign ++ td ++ [44] ++ t ++ after) ++ rest)
    with (before ++ pre ++ ta ++ 44 :: (sign ++ td ++ 44 :: (t ++ (after ++ rest)))).
  2: { do 4 (rewrite <- ?app_assoc; cbn [app]). reflexivity. }
  rewrite (scan_num_line before pre ta va) by auto. cbn -[scan_int scan_word skip_ws].
  rewrite (scan_int_line sign td vd d) by auto. cbn -[scan_int scan_word skip_ws].
  unfold scan_word. 
  assert (SK : skip_ws (t ++ after ++ rest) = t ++ after ++ rest).
  { destruct t as [|c t]; [congruence|]. cbn [app]. apply skip_not. apply not_white. inversion FT; auto. }
  rewrite SK, scan_run_app by auto. destruct t as [|c t]; [congruence|]. cbn [optbind].
  rewrite (skip_white after) by auto. reflexivity.
Qed.

Lemma scan_skip s : scan_hint (skip_ws s) = scan_hint s.
Proof. unfold scan_hint, scan_num. rewrite skip_ws_idem. reflexivity. Qed.
Lemma line_not_white s h r : line s h -> skip_ws (s ++ r) <> [].
Proof.
  intros L E. destruct L as [before pre a sign d t after ta td va vd W P NA LA SG ND LD NE FT WA ->].
  assert (B : (16:Z) = 10 \/ (16:Z) = 16) by lia.
  destruct (number_head 16 ta va B NA) as (_ & c & k & -> & R).
  rewrite <- app_assoc, skip_white in E by auto. destruct P as [-> | ->]; cbn [app] in E.
  - rewrite skip_not in E; [discriminate|]. unfold is_space. destruct (Z.eqb_spec c 32), (Z.leb_spec 9 c), (Z.leb_spec c 13); auto; lia.
  - rewrite skip_not in E by reflexivity. discriminate.
Qed.
Lemma skip_len s : (length (skip_ws s) <= length s)%nat.
Proof. induction s as [|c s IH]; cbn [skip_ws]; [auto|]. destruct (is_space c); cbn [length]; lia. Qed.
Lemma line_len s h : line s h -> (1 <= length s)%nat.
Proof. intros L. destruct s; [|cbn [length]; lia]. exfalso. apply (line_not_white [] h [] L). reflexivity. Qed.

Definition short (h : hint) : bool := zlen (h_type h) <? 5.
Lemma read_lines s hs tail : lines s hs -> scan_hint tail = None ->
  (tail = [] \/ exists s0 c, s = s0 ++ [c] /\ white c) ->
  forall fuel, (length s < fuel)%nat ->
  read_hints fuel (s ++ tail) = if forallb short hs then Ok hs else UB.
Proof.
  intros L NT. induction L as [s h L|s c r h hs L W Lr IH]; intros C fuel F.
  - destruct fuel as [|fuel]; [lia|]. cbn [read_hints]. rewrite (scan_line s h tail L C). cbn [forallb]. unfold short.
    rewrite andb_true_r. destruct (Z.leb_spec 5 (zlen (h_type h))), (Z.ltb_spec (zlen (h_type h)) 5); try lia; [reflexivity|].
    rewrite <- scan_skip in NT. destruct (skip_ws tail) as [|k t]; [reflexivity|].
    assert (R : read_hints fuel (k :: t) = Ok []). { destruct fuel as [|fuel]; [reflexivity|]. cbn [read_hints]. rewrite NT. reflexivity. }
    rewrite R. reflexivity.
  - destruct fuel as [|fuel]; [lia|].
    assert (NR : exists h0 r0 k, lines r hs /\ r = r0 ++ k /\ line r0 h0).
    { inversion Lr; subst; [exists h0, r, []; rewrite app_nil_r; auto|exists h0, (s0 ++ [c0]), r0; rewrite <- app_assoc; auto]. }
    destruct NR as (h0 & r0 & k & _ & ER & L0).
    replace ((s ++ [c] ++ r) ++ tail) with ((s ++ [c]) ++ (r ++ tail)) by (rewrite <- !app_assoc; reflexivity).
    cbn [read_hints]. rewrite (scan_line (s ++ [c]) h (r ++ tail) L) by eauto. cbn [forallb]. unfold short at 1.
    destruct (Z.leb_spec 5 (zlen (h_type h))), (Z.ltb_spec (zlen (h_type h)) 5); try lia; [reflexivity|]. cbn [andb].
    assert (CC : tail = [] \/ exists s0 c0, r = s0 ++ [c0] /\ white c0).
    { destruct C as [C|(s0 & c0 & E & W0)]; [left; exact C|right].
      assert (RN : r <> []). { intros Q. apply line_len in L0. rewrite Q in ER. destruct r0; [cbn in L0; lia|discriminate]. }
      destruct (exists_last RN) as (r1 & k1 & ->). rewrite !app_assoc in E. apply app_inj_tail in E. destruct E as [_ ->]. eauto. }
    assert (RR : read_hints fuel (skip_ws (r ++ tail)) = if forallb short hs then Ok hs else UB).
    { rewrite <- IH with (fuel := fuel); auto.
      - destruct fuel as [|fuel]; [reflexivity|]. cbn [read_hints]. rewrite scan_skip. reflexivity.
      - rewrite !app_length in F. cbn [length] in F. lia. }
    destruct (skip_ws (r ++ tail)) as [|k1 t1] eqn:SK.
    { exfalso. rewrite ER, <- app_assoc in SK. revert SK. eapply line_not_white; eauto. }
    rewrite RR. destruct (forallb short hs); reflexivity.
Qed.
