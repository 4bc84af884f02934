(** C73: the profile made from a file of prefetch hints. *)
From Coq Require Import Permutation.
From Verif Require Import Base SymbolModel SymbolSpec SymbolProofs SymbolProps ElideModel ElideProofs ElideProps
  AddrModel ByteModel AfdoModel SampleModel PrefetchModel PrefetchSpec PrefetchProofs PrefetchReadProofs.
Import ListNotations.
Open Scope Z_scope.

Lemma summed_cons {A} (g : A -> Z) x l : summed g (x :: l) = g x + summed g l.
Proof. reflexivity. Qed.
Lemma summed_ext {A} (f g : A -> Z) l : (forall x, In x l -> f x = g x) -> summed f l = summed g l.
Proof.
  induction l as [|x l IH]; intros H; [reflexivity|]. rewrite !summed_cons, H, IH; [reflexivity| |left; reflexivity].
  intros y I. apply H. right; auto.
Qed.
Lemma summed_perm {A} (f : A -> Z) l k : Permutation l k -> summed f l = summed f k.
Proof. induction 1; rewrite ?summed_cons; lia. Qed.
Lemma filter_le_len {A} (p : A -> bool) l : (length (filter p l) <= length l)%nat.
Proof. induction l as [|x l IH]; cbn [filter length]; [auto|]. destruct (p x); cbn [length]; lia. Qed.

(** * Reading the file *)

(** A file of lines "address,delta,type" gives its hints in order, if every type
    has at most four characters. *)
Theorem C73_read : forall s hs, lines s hs -> (forall h, In h hs -> zlen (h_type h) < 5) ->
  ReadPrefetchHints (Some s) = Ok hs.
Proof.
  intros s hs L SH. unfold ReadPrefetchHints.
  pose proof (read_lines s hs [] L eq_refl (or_introl eq_refl) (S (length s)) (Nat.lt_succ_diag_r _)) as R.
  rewrite app_nil_r in R. rewrite R.
  assert (forallb short hs = true) as ->; [|reflexivity].
  apply forallb_forall. intros h I. unfold short. apply Z.ltb_lt. auto.
Qed.
Print Assumptions C73_read.

(** The promise one would make: a file with a malformed line is rejected.  It is
    not: what precedes the line is taken, silently.  Here the malformed line
    begins with something that is neither white space nor part of a number. *)
Theorem C73_malformed_rejected_refuted : forall s0 c0 hs c junk,
  lines (s0 ++ [c0]) hs -> white c0 -> (forall h, In h hs -> zlen (h_type h) < 5) ->
  ~ white c -> c <> 43 -> c <> 45 -> (forall d, ~ digit 16 c d) ->
  ReadPrefetchHints (Some ((s0 ++ [c0]) ++ c :: junk)) = Ok hs.
Proof.
  intros s0 c0 hs c junk L W SH NW N43 N45 ND. unfold ReadPrefetchHints.
  rewrite (read_lines (s0 ++ [c0]) hs (c :: junk) L).
  - assert (forallb short hs = true) as ->; [|reflexivity].
    apply forallb_forall. intros h I. unfold short. apply Z.ltb_lt. auto.
  - unfold scan_hint, scan_num. rewrite skip_not by (apply not_white; exact NW).
    assert (HD : (match c :: junk with 45 :: s' => (true, s') | 43 :: s' => (false, s') | _ => (false, c :: junk) end) = (false, c :: junk)).
    { clear -N43 N45. destruct c as [|p|p]; auto. do 6 (destruct p as [p|p|]; auto); congruence. }
    rewrite HD. clear HD. change (16 =? 16) with true. cbv beta iota.
    assert (DV : digit_val 16 c = None).
    { destruct (digit_val 16 c) as [d|] eqn:E; [|reflexivity]. exfalso. apply (ND d). revert E. unfold digit_val.
      destruct (Z.leb_spec 48 c), (Z.leb_spec c 57), (Z.leb_spec 97 c), (Z.leb_spec c 102), (Z.leb_spec 65 c), (Z.leb_spec c 70);
        cbn [andb]; try discriminate;
      match goal with |- (if ?x <? 16 then _ else _) = _ -> _ => destruct (Z.ltb_spec x 16); [|discriminate] end;
      intros Q; injection Q as <-; unfold digit; lia. }
    assert (HX : (match c :: junk with 48 :: 120 :: s' | 48 :: 88 :: s' => s' | _ => c :: junk end) = c :: junk).
    { assert (c <> 48) by (intros ->; discriminate DV). clear -H. destruct c as [|p|p]; auto. do 6 (destruct p as [p|p|]; auto); congruence. }
    rewrite HX. cbn [scan_digits]. rewrite DV. reflexivity.
  - right. eauto.
  - rewrite !app_length. lia.
Qed.
Print Assumptions C73_malformed_rejected_refuted.

(** ... and neither is a missing file: it gives no hints and no error. *)
Theorem C73_missing_file_reported_refuted : forall base orig symtab stack_of,
  ConvertPrefetchHints base orig symtab (fun _ => []) stack_of 0 None = Ok (SMap [] []).
Proof. reflexivity. Qed.
Print Assumptions C73_missing_file_reported_refuted.

(** A type of five or more characters overflows the buffer it is read into. *)
Theorem C73_long_type_overflows_refuted : forall s hs h, lines s hs -> In h hs -> 5 <= zlen (h_type h) ->
  ReadPrefetchHints (Some s) = UB.
Proof.
  intros s hs h L I LG. unfold ReadPrefetchHints.
  pose proof (read_lines s hs [] L eq_refl (or_introl eq_refl) (S (length s)) (Nat.lt_succ_diag_r _)) as R.
  rewrite app_nil_r in R. rewrite R.
  assert (forallb short hs = false) as ->; [|reflexivity].
  apply not_true_is_false. intros F. rewrite forallb_forall in F. specialize (F h I). unfold short in F. apply Z.ltb_lt in F. lia.
Qed.
Print Assumptions C73_long_type_overflows_refuted.

(** * The profile *)
Section Profile.
  Variable base : Z -> Z.                    (* discriminator encoding *)
  Variable orig : name -> name.              (* GetOriginalName *)
  Variable symtab : list (Z * (name * Z)).   (* the function symbols *)
  Variable stack_of : Z -> list sinfo.       (* the inline stack of an address *)
  Notation convert := (ConvertPrefetchHints base orig symtab (fun _ => []) stack_of 0).
  Notation about := (about base orig symtab stack_of).
  Notation hinted := (hinted symtab).
  Notation bogus := (bogus base symtab stack_of).
  Notation home := (home symtab).
  Notation placed := (placed base stack_of).
  Notation target := (target orig).

  Lemma total_over_fns (o : observer) (g : name -> Z) m fns n : smap_ok m ->
    (forall x s, sm_find m x = Some s -> observe o s = g x) ->
    NoDup fns -> (forall x, In x fns <-> sm_find m x <> None /\ orig x = n) ->
    total_over o m (filter (fun x => name_eqb (orig x) n) (akeys (sm_names m))) = summed g fns.
  Proof.
    intros OK G ND FN. unfold total_over.
    assert (E : forall l, (forall x, In x l -> sm_find m x <> None) ->
      fold_right Z.add 0 (map (fun x => match sm_find m x with Some s => observe o s | None => 0 end) l) = summed g l).
    { induction l as [|x l IH]; intros H; [reflexivity|]. rewrite summed_cons. cbn [map fold_right].
      rewrite IH by (intros; apply H; right; auto). f_equal.
      destruct (sm_find m x) as [s|] eqn:F; [apply G; exact F|]. exfalso. apply (H x); [left; auto|exact F]. }
    rewrite E.
    - apply summed_perm. apply NoDup_Permutation; auto.
      + apply NoDup_filter. apply OK.
      + intros x. rewrite filter_In, FN, (sm_find_keys m x OK). destruct (name_eqb_spec (orig x) n); intuition congruence.
    - intros x I. apply filter_In in I. apply (sm_find_keys m x OK). tauto.
  Qed.

  (** The profile: its functions are the original names of the functions that
      have hints; the value of a call target is the sum, over the functions with
      that original name, of the delta of the last hint for it; a function has no
      other counts than one bogus sample per function merged into it whose first
      hint lies there. *)
  Theorem C73_profile : forall file hs,
    ReadPrefetchHints file = Ok hs -> (forall x, hinted x hs = true -> orig (orig x) = orig x) ->
    exists m, convert file = Ok m /\
      (forall n, sm_find m n <> None <-> exists x, hinted x hs = true /\ orig x = n) /\
      forall n s, sm_find m n = Some s ->
      forall fns, NoDup fns -> (forall x, In x fns <-> hinted x hs = true /\ orig x = n) ->
      forall q l t,
        target_at s q l t = summed (fun x => last_delta (about x q l t) (ranked [] hs)) fns mod 2 ^ 64 /\
        total_at s q = summed (fun x => bogus x hs q) fns mod 2 ^ 64 /\
        head_at s q = 0 /\ count_at s q l = 0 /\ ninst_at s q l = 0.
  Proof.
    intros file hs R ID. unfold ConvertPrefetchHints. rewrite R. cbn [obind].
    destruct (convert_spec base orig symtab stack_of hs) as (m & idx & E & V). rewrite E. cbn [obind].
    destruct V as [OK UN _ DM].
    assert (HK : forall x, hinted x hs = true <-> sm_find m x <> None).
    { intros x. specialize (DM x). destruct (sm_find m x); [destruct DM as [-> _]|rewrite DM]; intuition congruence. }
    destruct (C12_elision_merges_when_idempotent orig m) as (m' & E' & OK' & PR & SUM); auto.
    { intros x I. apply ID. apply HK. apply sm_find_keys; auto. }
    exists m'. split; [exact E'|]. split.
    - intros n. rewrite PR. split; intros (x & I & O); exists x; split; auto; [apply HK, sm_find_keys; auto|].
      apply sm_find_keys; auto. apply HK. exact I.
    - intros n s F fns ND FN q l t. specialize (SUM n s F).
      assert (FN' : forall x, In x fns <-> sm_find m x <> None /\ orig x = n). { intros x. rewrite FN, HK. reflexivity. }
      assert (Z0 : summed (fun _ : name => 0) fns = 0).
      { clear. induction fns as [|x fns IH]; [reflexivity|]. rewrite summed_cons, IH. reflexivity. }
      pose proof (SUM (OTarget q l t)) as S1. rewrite (total_over_fns (OTarget q l t) (fun x => last_delta (about x q l t) (ranked [] hs)) m fns n) in S1; auto.
      2: { intros x s0 F0. specialize (DM x). rewrite F0 in DM. destruct DM as [_ SH]. apply SH. }
      pose proof (SUM (OTotal q)) as S2. rewrite (total_over_fns (OTotal q) (fun x => bogus x hs q) m fns n) in S2; auto.
      2: { intros x s0 F0. specialize (DM x). rewrite F0 in DM. destruct DM as [_ SH]. apply (SH q 0 []). }
      pose proof (SUM (OHead q)) as S3. rewrite (total_over_fns (OHead q) (fun _ => 0) m fns n) in S3; auto.
      2: { intros x s0 F0. specialize (DM x). rewrite F0 in DM. destruct DM as [_ SH]. apply (SH q 0 []). }
      pose proof (SUM (OCount q l)) as S4. rewrite (total_over_fns (OCount q l) (fun _ => 0) m fns n) in S4; auto.
      2: { intros x s0 F0. specialize (DM x). rewrite F0 in DM. destruct DM as [_ SH]. apply (SH q l []). }
      pose proof (SUM (ONinst q l)) as S5. rewrite (total_over_fns (ONinst q l) (fun _ => 0) m fns n) in S5; auto.
      2: { intros x s0 F0. specialize (DM x). rewrite F0 in DM. destruct DM as [_ SH]. apply (SH q l []). }
      rewrite Z0, Z.mod_0_l in S3, S4, S5 by lia. cbn [observe] in *. auto.
  Qed.

  (** The functions of an original name, as a list. *)
  Lemma fns_exist hs n : exists fns, NoDup fns /\ (forall x, In x fns <-> hinted x hs = true /\ orig x = n) /\ (length fns <= length hs)%nat.
  Proof.
    set (L := flat_map (fun h => match home (h_address h) with Some x => [x] | None => [] end) hs).
    assert (HL : forall x, In x L <-> hinted x hs = true).
    { intros x. unfold L, PrefetchSpec.hinted. rewrite in_flat_map, existsb_exists. unfold in_fn.
      split; intros (h & I & P); exists h; split; auto.
      - destruct (home (h_address h)); [|destruct P]. destruct P as [-> |[]]. destruct (name_eqb_spec x x); congruence.
      - destruct (home (h_address h)); [|discriminate]. destruct (name_eqb_spec x n0); [left; congruence|discriminate]. }
    assert (DEC : forall x y : name, {x = y} + {x <> y}). { intros x y. destruct (name_eqb_spec x y); auto. }
    exists (filter (fun x => name_eqb (orig x) n) (nodup DEC L)). split; [apply NoDup_filter, NoDup_nodup|]. split.
    - intros x. rewrite filter_In, nodup_In, HL. destruct (name_eqb_spec (orig x) n); intuition congruence.
    - assert (LE : (length L <= length hs)%nat).
      { unfold L. clear. induction hs as [|h hs IH]; [auto|]. cbn [flat_map]. rewrite app_length. cbn [length].
        destruct (home (h_address h)); cbn [length]; lia. }
      etransitivity; [|exact LE]. etransitivity; [apply filter_le_len|]. 
      apply NoDup_incl_length; [apply NoDup_nodup|]. intros x I. rewrite nodup_In in I. exact I.
  Qed.

  (** A hint that no other hint contradicts is in the profile: under the original
      name of its function, along its inline path, at its location, under its
      target name, with its delta. *)
  Theorem C73_hint_kept : forall file hs h k x q l,
    ReadPrefetchHints file = Ok hs -> (forall x, hinted x hs = true -> orig (orig x) = orig x) ->
    In (h, k) (ranked [] hs) -> home (h_address h) = Some x -> placed (h_address h) q l = true ->
    (forall h' k' x', In (h', k') (ranked [] hs) -> home (h_address h') = Some x' -> orig x' = orig x ->
       placed (h_address h') q l = true -> target (h', k') = target (h, k) -> (h', k') = (h, k)) ->
    exists m s, convert file = Ok m /\ sm_find m (orig x) = Some s /\
      target_at s q l (target (h, k)) = h_delta h mod 2 ^ 64.
  Proof.
    intros file hs h k x q l R ID I HX PL UQ. destruct (C73_profile file hs R ID) as (m & E & PR & SUM).
    assert (IH : In h hs). { clear -I. revert I. generalize (@nil hint) as e. induction hs as [|g hs IH]; intros e J; [destruct J|].
      cbn [ranked In] in J. destruct J as [J|J]; [injection J as -> _; left; reflexivity|right; eapply IH; eauto]. }
    assert (INF : in_fn symtab x h = true). { unfold in_fn. rewrite HX. destruct (name_eqb_spec x x); congruence. }
    assert (HH : hinted x hs = true). { apply existsb_exists. eauto. }
    destruct (sm_find m (orig x)) as [s|] eqn:F; [|exfalso; apply (proj2 (PR (orig x))); eauto].
    exists m, s. split; [exact E|]. split; [exact F|].
    destruct (fns_exist hs (orig x)) as (fns & ND & FN & _).
    destruct (SUM _ s F fns ND FN q l (target (h, k))) as (-> & _).
    assert (ONLY : forall y r, In r (ranked [] hs) -> orig y = orig x -> about y q l (target (h, k)) r = true -> r = (h, k) /\ y = x).
    { intros y [h' k'] Ir Oy A. unfold PrefetchSpec.about in A. cbn [fst] in A. apply andb_prop in A. destruct A as [A A3]. apply andb_prop in A.
      destruct A as [A1 A2]. unfold in_fn in A1. destruct (home (h_address h')) as [y'|] eqn:HY; [|discriminate].
      destruct (name_eqb_spec y y') as [->|]; [|discriminate].
      destruct (name_eqb_spec (target (h, k)) (target (h', k'))) as [T|]; [|discriminate].
      assert (Q : (h', k') = (h, k)) by (eapply UQ; eauto). split; [exact Q|]. injection Q as -> ->. congruence. }
    assert (VAL : forall y, In y fns -> last_delta (about y q l (target (h, k))) (ranked [] hs) = if name_eqb y x then h_delta h mod 2 ^ 64 else 0).
    { intros y Iy. apply FN in Iy. destruct Iy as [_ Oy]. unfold last_delta.
      destruct (find (about y q l (target (h, k))) (rev (ranked [] hs))) as [r|] eqn:FF.
      - apply find_some in FF. destruct FF as [Ir A]. rewrite <- in_rev in Ir. destruct (ONLY y r Ir Oy A) as [-> ->].
        cbn [fst]. destruct (name_eqb_spec x x); congruence.
      - destruct (name_eqb_spec y x) as [->|]; [|reflexivity]. exfalso.
        apply (find_none _ _ FF) in I as NA || (rewrite in_rev in I; apply (find_none _ _ FF) in I as NA).
        unfold PrefetchSpec.about in NA. cbn [fst] in NA. rewrite INF, PL in NA. cbn [andb] in NA.
        destruct (name_eqb_spec (target (h, k)) (target (h, k))); congruence. }
    rewrite (summed_ext _ (fun y => if name_eqb y x then h_delta h mod 2 ^ 64 else 0)) by exact VAL.
    assert (IX : In x fns) by (apply FN; auto).
    assert (ONE : summed (fun y => if name_eqb y x then h_delta h mod 2 ^ 64 else 0) fns = h_delta h mod 2 ^ 64).
    { clear -ND IX. induction fns as [|y fns IH]; [destruct IX|]. inversion ND as [|? ? NI ND']; subst. rewrite summed_cons.
      destruct (name_eqb_spec y x) as [->|NE].
      - assert (Z0 : summed (fun y => if name_eqb y x then h_delta h mod 2 ^ 64 else 0) fns = 0); [|lia].
        clear IH ND ND' IX. induction fns as [|z fns IH]; [reflexivity|]. rewrite summed_cons, IH by (intros J; apply NI; right; auto).
        destruct (name_eqb_spec z x) as [->|]; [exfalso; apply NI; left; auto|lia].
      - destruct IX as [->|IX]; [congruence|]. rewrite IH by auto. lia. }
    rewrite ONE. apply Z.mod_mod. lia.
  Qed.

  (** Writers drop a function whose total does not exceed the threshold (0).
      Here: it is written exactly when, of one of the functions merged into it,
      the first hint has a source location. *)
  Theorem C73_written : forall file hs n m s,
    ReadPrefetchHints file = Ok hs -> (forall x, hinted x hs = true -> orig (orig x) = orig x) -> zlen hs < 2 ^ 63 ->
    convert file = Ok m -> sm_find m n = Some s ->
    (ShouldEmit 0 (total_at s []) = true <->
     exists x h, orig x = n /\ find (in_fn symtab x) hs = Some h /\ stack_of (h_address h) <> []).
  Proof.
    intros file hs n m s R ID LEN E F. destruct (C73_profile file hs R ID) as (m1 & E1 & _ & SUM).
    assert (m1 = m) by congruence. subst m1. destruct (fns_exist hs n) as (fns & ND & FN & LF).
    destruct (SUM n s F fns ND FN [] 0 []) as (_ & -> & _). clear SUM E E1 F.
    assert (B : forall x, bogus x hs [] = 1 /\ (exists h, find (in_fn symtab x) hs = Some h /\ stack_of (h_address h) <> []) \/
                          bogus x hs [] = 0 /\ ~ (exists h, find (in_fn symtab x) hs = Some h /\ stack_of (h_address h) <> [])).
    { intros x. unfold PrefetchSpec.bogus, first_hint, under. destruct (find (in_fn symtab x) hs) as [h|] eqn:FX.
      - destruct (stack_of (h_address h)) as [|i st] eqn:ST.
        + right. split; auto. intros (h' & Q & NE). injection Q as <-. congruence.
        + left. split; [reflexivity|]. exists h. split; congruence.
      - right. split; auto. intros (h' & Q & _). discriminate. }
    assert (RNG : 0 <= summed (fun x => bogus x hs []) fns <= zlen fns).
    { clear -B. unfold zlen. induction fns as [|x fns IH]; [cbn; lia|]. rewrite summed_cons. cbn [length]. rewrite Nat2Z.inj_succ.
      destruct (B x) as [[-> _]|[-> _]]; lia. }
    unfold zlen in *. rewrite Z.mod_small by lia. unfold ShouldEmit.
    assert (EM : forall v, 0 <= v < 2 ^ 63 -> ((0 <? s64 v) = true <-> 0 < v)).
    { intros v Hv. rewrite Z.ltb_lt. unfold s64. destruct (Z.ltb_spec v (2 ^ 63)); lia. }
    rewrite EM by lia. clear EM. split.
    - intros P. assert (EX : exists x, In x fns /\ bogus x hs [] = 1).
      { clear -P B. induction fns as [|x fns IH]; [cbn in P; lia|]. rewrite summed_cons in P. destruct (B x) as [[Q _]|[Q _]].
        - exists x. split; [left; auto|exact Q].
        - destruct IH as (y & I & Y); [lia|]. exists y. split; [right; auto|exact Y]. }
      destruct EX as (x & I & Q). destruct (B x) as [[_ (h & A1 & A2)]|[Q' _]]; [|lia]. exists x, h. apply FN in I. tauto.
    - intros (x & h & O & A1 & A2). destruct (B x) as [[Q _]|[_ NX]]; [|exfalso; apply NX; eauto].
      assert (I : In x fns). { apply FN. split; auto. apply existsb_exists. apply find_some in A1. eauto. }
      clear -I Q B. induction fns as [|y fns IH]; [destruct I|]. rewrite summed_cons.
      assert (P0 : 0 <= summed (fun x => bogus x hs []) fns).
      { clear -B. induction fns as [|z fns IH]; [cbn; lia|]. rewrite summed_cons. destruct (B z) as [[-> _]|[-> _]]; lia. }
      destruct I as [-> |I]; [lia|]. specialize (IH I). destruct (B y) as [[-> _]|[-> _]]; lia.
  Qed.
End Profile.
Print Assumptions C73_profile.
Print Assumptions C73_hint_kept.
Print Assumptions C73_written.

Lemma ranked_In hs : forall e h k, In (h, k) (ranked e hs) -> In h hs /\ zlen (filter (fun g => h_address g =? h_address h) e) <= k /\
  k < zlen (filter (fun g => h_address g =? h_address h) (e ++ hs)).
Proof.
  induction hs as [|g hs IH]; intros e h k; cbn [ranked In]; [intros []|]. intros [I|I].
  - injection I as -> <-. split; [auto|]. split; [lia|]. rewrite filter_app. cbn [filter]. rewrite Z.eqb_refl.
    unfold zlen. rewrite app_length. cbn [length]. lia.
  - apply IH in I. destruct I as (A & B & C). split; [auto|]. rewrite <- app_assoc in C. cbn [app] in C. split; [|exact C].
    rewrite filter_app in B. unfold zlen in *. rewrite app_length in B. lia.
Qed.
Lemma ranked_inj hs : forall e h h' k, In (h, k) (ranked e hs) -> In (h', k) (ranked e hs) -> h_address h = h_address h' -> h = h'.
Proof.
  induction hs as [|g hs IH]; intros e h h' k; cbn [ranked In]; [intros []|].
  assert (X : forall a b, (g, zlen (filter (fun e => h_address e =? h_address g) e)) = (a, k) -> In (b, k) (ranked (e ++ [g]) hs) ->
    h_address a = h_address b -> False).
  { intros a b Q J HA. injection Q as -> K. apply ranked_In in J. destruct J as (_ & J & _). rewrite <- HA in J.
    rewrite filter_app in J. cbn [filter] in J. rewrite Z.eqb_refl in J. unfold zlen in *. rewrite app_length in J. cbn [length] in J. lia. }
  intros [I|I] [J|J] HA.
  - congruence.
  - exfalso. eapply X; eauto.
  - exfalso. eapply X; eauto.
  - eapply IH; eauto.
Qed.

Lemma decimal_digits k : 0 <= k < 256 -> Forall (fun c => 48 <= c <= 57) (decimal k).
Proof.
  intros H. unfold decimal.
  assert (0 <= k mod 10 < 10) by (apply Z.mod_pos_bound; lia).
  assert (0 <= k / 10 mod 10 < 10) by (apply Z.mod_pos_bound; lia).
  assert (0 <= k / 10) by (apply Z.div_pos; lia). assert (0 <= k / 100) by (apply Z.div_pos; lia).
  assert (k / 100 < 10) by (apply Z.div_lt_upper_bound; lia).
  destruct (Z.ltb_spec k 10), (Z.ltb_spec k 100); try lia.
  - constructor; [lia|constructor].
  - assert (k / 10 < 10) by (apply Z.div_lt_upper_bound; lia). repeat constructor; lia.
  - repeat (constructor; [lia|]). constructor.
Qed.
Lemma cons_inj {A} (x y : A) l k : x :: l = y :: k -> x = y /\ l = k.
Proof. intros E. inversion E. auto. Qed.
Lemma decimal_inj a b : 0 <= a < 256 -> 0 <= b < 256 -> decimal a = decimal b -> a = b.
Proof.
  intros A B. unfold decimal.
  assert (Ea : a = 10 * (a / 10) + a mod 10) by (apply Z.div_mod; lia).
  assert (Eb : b = 10 * (b / 10) + b mod 10) by (apply Z.div_mod; lia).
  assert (Fa : a / 10 = 10 * (a / 100) + (a / 10) mod 10). { replace (a / 100) with (a / 10 / 10) by (rewrite Z.div_div by lia; reflexivity). apply Z.div_mod; lia. }
  assert (Fb : b / 10 = 10 * (b / 100) + (b / 10) mod 10). { replace (b / 100) with (b / 10 / 10) by (rewrite Z.div_div by lia; reflexivity). apply Z.div_mod; lia. }
  destruct (a <? 10), (b <? 10), (a <? 100), (b <? 100); intros Q; try discriminate;
    repeat match goal with H : _ :: _ = _ :: _ |- _ => apply cons_inj in H; destruct H end; lia.
Qed.
(** The part after the last underscore. *)
Lemma underscore_inj (p1 p2 d1 d2 : name) : Forall (fun c => c <> 95) d1 -> Forall (fun c => c <> 95) d2 ->
  p1 ++ 95 :: d1 = p2 ++ 95 :: d2 -> p1 = p2 /\ d1 = d2.
Proof.
  revert p2. induction p1 as [|c p1 IH]; intros [|c2 p2] F1 F2 E; cbn [app] in E.
  - injection E as E. auto.
  - apply cons_inj in E; destruct E as [E1 E]. exfalso. rewrite E in F1. apply Forall_app in F1. destruct F1 as [_ F1]. inversion F1 as [|? ? Q _]. cbv beta in Q. lia.
  - apply cons_inj in E; destruct E as [E1 E]. exfalso. rewrite <- E in F2. apply Forall_app in F2. destruct F2 as [_ F2]. inversion F2 as [|? ? Q _]. cbv beta in Q. lia.
  - injection E as -> E. destruct (IH p2 F1 F2 E) as [-> ->]. auto.
Qed.

(** All hints are kept, each with its own delta, when different instructions with
    hints have different source positions, no instruction has more than 256
    hints, and no type has something the suffix policy would strip. *)
Theorem C73_all_kept : forall base orig symtab stack_of file hs,
  ReadPrefetchHints file = Ok hs -> (forall x, hinted symtab x hs = true -> orig (orig x) = orig x) ->
  (forall h k, In (h, k) (ranked [] hs) ->
     let t := [95; 95; 112; 114; 101; 102; 101; 116; 99; 104; 95] ++ h_type h ++ [95] ++ decimal (k mod 256) in orig t = t) ->
  (forall h h' x x' q l, In h hs -> In h' hs -> home symtab (h_address h) = Some x -> home symtab (h_address h') = Some x' ->
     orig x = orig x' -> placed base stack_of (h_address h) q l = true -> placed base stack_of (h_address h') q l = true ->
     h_address h = h_address h') ->
  (forall a, zlen (filter (fun h => h_address h =? a) hs) <= 256) ->
  forall h k x q l, In (h, k) (ranked [] hs) -> home symtab (h_address h) = Some x -> placed base stack_of (h_address h) q l = true ->
  exists m s, ConvertPrefetchHints base orig symtab (fun _ => []) stack_of 0 file = Ok m /\ sm_find m (orig x) = Some s /\
    target_at s q l (target orig (h, k)) = h_delta h mod 2 ^ 64.
Proof.
  intros base orig symtab stack_of file hs R ID TG AP N256 h k x q l I HX PL.
  eapply C73_hint_kept; eauto. intros h' k' x' I' HX' O PL' T.
  destruct (ranked_In _ _ _ _ I) as (Ih & K1 & K2). destruct (ranked_In _ _ _ _ I') as (Ih' & K1' & K2'). cbn [app] in *.
  assert (HA : h_address h' = h_address h) by (eapply AP; eauto).
  assert (NN : forall g, 0 <= zlen (filter g (@nil hint))) by (intros; unfold zlen; lia).
  pose proof (NN (fun g => h_address g =? h_address h)) as P1. pose proof (NN (fun g => h_address g =? h_address h')) as P2.
  pose proof (N256 (h_address h)) as L1. pose proof (N256 (h_address h')) as L2.
  assert (R1 : 0 <= k < 256) by lia. assert (R2 : 0 <= k' < 256) by lia.
  assert (T1 : target orig (h, k) = [95; 95; 112; 114; 101; 102; 101; 116; 99; 104; 95] ++ h_type h ++ [95] ++ decimal (k mod 256)) by exact (TG _ _ I).
  assert (T2 : target orig (h', k') = [95; 95; 112; 114; 101; 102; 101; 116; 99; 104; 95] ++ h_type h' ++ [95] ++ decimal (k' mod 256)) by exact (TG _ _ I').
  rewrite T1, T2 in T.
  rewrite !Z.mod_small in T by assumption.
  apply app_inv_head in T. cbn [app] in T.
  apply underscore_inj in T.
  - destruct T as [_ T]. apply decimal_inj in T; auto. subst k'. f_equal. eapply ranked_inj; eauto.
  - eapply Forall_impl; [|apply decimal_digits; exact R2]. cbv beta. intros; lia.
  - eapply Forall_impl; [|apply decimal_digits; exact R1]. cbv beta. intros; lia.
Qed.
Print Assumptions C73_all_kept.

(** * What one would expect besides, and is false *)
(** A function [f] at 4096..8192; [f.cold] at 8192..12288; line = (address - start) / 16. *)
Definition pf_f : name := [102].
Definition pf_symtab : list (Z * (name * Z)) := [(4096, (pf_f, 4096)); (8192, ([102; 46; 99], 4096))].
Definition pf_stack (a : Z) : list sinfo :=
  if a mod 4096 =? 0 then [] else [SInfo pf_f 1 (1 + a mod 4096 / 16) 0].
Definition pf_convert (hs : list hint) : outcome smap :=
  let! m := convert_loop (fun d => d) (GetOriginalName ElideAll) pf_symtab (fun _ => []) pf_stack 0 hs [] (SMap [] []) in
  ElideSuffixesAndMerge (GetOriginalName ElideAll) m.
Definition pf_nta : name := [110; 116; 97].
Definition pf_shown (hs : list hint) (l : Z) (i : Z) : Z :=
  match pf_convert hs with
  | Ok m => match sm_find m pf_f with Some s => target_at s [] l ([95; 95; 112; 114; 101; 102; 101; 116; 99; 104; 95] ++ pf_nta ++ [95] ++ decimal i) | None => -1 end
  | _ => -1
  end.

(** The 257th hint for an instruction takes the place of the first. *)
Theorem C73_each_hint_kept_refuted :
  exists hs, length hs = 257%nat /\ (forall h, In h hs -> h_address h = 4112) /\
    (exists h, hd_error hs = Some h /\ h_delta h = 1) /\
    pf_shown hs 4294967296 0 = 7 /\ pf_shown hs 4294967296 1 = 2 /\ pf_shown hs 4294967296 256 = 0.
Proof.
  exists (map (fun i => Hint 4112 (if i =? 257 then 7 else i) pf_nta) (map Z.of_nat (seq 1 257))).
  split; [reflexivity|]. split.
  { intros h I. apply in_map_iff in I. destruct I as (i & <- & _). reflexivity. }
  split. { eexists. split; reflexivity. }
  split; [vm_compute; reflexivity|]. split; vm_compute; reflexivity.
Qed.
Print Assumptions C73_each_hint_kept_refuted.

(** Two instructions of one source line: the second hint replaces the first; one
    in f and one in f.cold: their deltas are added up. *)
Theorem C73_deltas_separate_refuted :
  pf_shown [Hint 4112 5 pf_nta; Hint 4116 (-64) pf_nta] 4294967296 0 = 2 ^ 64 - 64 /\
  pf_shown [Hint 4112 5 pf_nta; Hint 8208 (-64) pf_nta] 4294967296 0 = 2 ^ 64 - 59.
Proof. split; vm_compute; reflexivity. Qed.
Print Assumptions C73_deltas_separate_refuted.

(** A first hint without source location makes the writers drop the function, and
    so all its other hints. *)
Theorem C73_located_hints_written_refuted :
  exists m s, pf_convert [Hint 4096 5 pf_nta; Hint 4112 (-64) pf_nta] = Ok m /\ sm_find m pf_f = Some s /\
    target_at s [] 4294967296 ([95; 95; 112; 114; 101; 102; 101; 116; 99; 104; 95] ++ pf_nta ++ [95; 48]) = 2 ^ 64 - 64 /\
    start 0 (map_entries m) = [].
Proof.
  eexists. eexists. split; [vm_compute; reflexivity|]. split; [vm_compute; reflexivity|]. split; vm_compute; reflexivity.
Qed.
Print Assumptions C73_located_hints_written_refuted.

(** A file "0x1010,-64,nta<newline>1020,5,t0<newline>": both hints arrive. *)
Definition pf_file : list Z :=
  [48; 120; 49; 48; 49; 48; 44; 45; 54; 52; 44; 110; 116; 97; 10; 49; 48; 50; 48; 44; 53; 44; 116; 48; 10].
Example C73_nonvacuous :
  lines pf_file [Hint 4112 (-64) pf_nta; Hint 4128 5 [116; 48]] /\
  ReadPrefetchHints (Some pf_file) = Ok [Hint 4112 (-64) pf_nta; Hint 4128 5 [116; 48]] /\
  exists m s, ConvertPrefetchHints (fun d => d) (GetOriginalName ElideAll) pf_symtab (fun _ => []) pf_stack 0 (Some pf_file) = Ok m /\
    sm_find m pf_f = Some s /\
    target_at s [] 4294967296 ([95; 95; 112; 114; 101; 102; 101; 116; 99; 104; 95] ++ pf_nta ++ [95; 48]) = 2 ^ 64 - 64 /\
    target_at s [] 8589934592 [95; 95; 112; 114; 101; 102; 101; 116; 99; 104; 95; 116; 48; 95; 48] = 5 /\
    total_at s [] = 1 /\ map fst (map_entries m) = [pf_f] /\ start 0 (map_entries m) <> [].
Proof.
  split.
  { assert (D : forall b c d, 0 <= d < b -> c = 48 + d -> d < 10 -> digit b c d) by (intros; unfold digit; lia).
    apply (ls_more [48; 120; 49; 48; 49; 48; 44; 45; 54; 52; 44; 110; 116; 97] 10 [49; 48; 50; 48; 44; 53; 44; 116; 48; 10]).
    - apply (line_intro [] [48; 120] 4112 [45] (-64) pf_nta [10] [49; 48; 49; 48] [54; 52] 4112 64).
      + constructor.
      + right; reflexivity.
      + apply (num_more 16 [49; 48; 49] 257 48 0); [|apply D; lia]. apply (num_more 16 [49; 48] 16 49 1); [|apply D; lia].
        apply (num_more 16 [49] 1 48 0); [|apply D; lia]. apply (num_one 16 49 1). apply D; lia.
      + lia.
      + right. split; reflexivity.
      + apply (num_more 10 [54] 6 52 4); [|apply D; lia]. apply (num_one 10 54 6). apply D; lia.
      + lia.
      + discriminate.
      + repeat (constructor; [unfold white; lia|]). constructor.
      + constructor; [unfold white; lia|constructor].
      + reflexivity.
    - right. lia.
    - apply ls_last.
      apply (line_intro [] [] 4128 [] 5 [116; 48] [10] [49; 48; 50; 48] [53] 4128 5).
      + constructor.
      + left; reflexivity.
      + apply (num_more 16 [49; 48; 50] 258 48 0); [|apply D; lia]. apply (num_more 16 [49; 48] 16 50 2); [|apply D; lia].
        apply (num_more 16 [49] 1 48 0); [|apply D; lia]. apply (num_one 16 49 1). apply D; lia.
      + lia.
      + left. split; reflexivity.
      + apply (num_one 10 53 5). apply D; lia.
      + lia.
      + discriminate.
      + repeat (constructor; [unfold white; lia|]). constructor.
      + constructor; [unfold white; lia|constructor].
      + reflexivity. }
  split; [vm_compute; reflexivity|].
  eexists. eexists. split; [vm_compute; reflexivity|]. split; [vm_compute; reflexivity|].
  split; [vm_compute; reflexivity|]. split; [vm_compute; reflexivity|]. split; [vm_compute; reflexivity|].
  split; [vm_compute; reflexivity|]. vm_compute. discriminate.
Qed.
