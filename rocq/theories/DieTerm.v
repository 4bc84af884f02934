(** The bound on the number of turns in DieModel is never reached: every turn consumes a byte. *)
From Verif Require Import Base ByteModel DieModel.

Lemma advance_le n p q : advance n p = Ok q -> (length q <= length p)%nat.
Proof. unfold advance. destruct (n <=? zlen p); intros E; [|discriminate]. injection E as <-. rewrite skipn_length. lia. Qed.
Lemma advance_lt n p q : advance n p = Ok q -> 1 <= n -> p <> [] -> (length q < length p)%nat.
Proof. unfold advance. destruct (n <=? zlen p); intros E N P; [|discriminate]. injection E as <-. rewrite skipn_length. destruct p; [congruence|]. cbn [length]. lia. Qed.
Lemma uleb_loop_pos p : forall r n sh v len, uleb_loop p r n sh = Ok (v, len) -> n + 1 <= len.
Proof.
  induction p as [|b p IH]; intros r n sh v len E; cbn [uleb_loop] in E; [discriminate|]. destruct (64 <=? sh); [discriminate|].
  destruct (Z.land b 128 =? 0); [injection E as _ <-; lia|]. apply IH in E. lia.
Qed.
Lemma next_uleb_lt p v q : next_uleb p = Ok (v, q) -> (length q < length p)%nat.
Proof.
  unfold next_uleb, ReadUnsignedLEB128. destruct (uleb_loop p 0 0 0) as [[v' len]| |] eqn:E; cbn [obind]; try discriminate.
  destruct (advance len p) as [q'| |] eqn:A; cbn [obind]; try discriminate. intros Q. injection Q as _ <-.
  apply (advance_lt _ _ _ A); [apply uleb_loop_pos in E; lia|intros ->; discriminate E].
Qed.
Lemma obind_ext {A B} (x : outcome A) (f g : A -> outcome B) : (forall a, x = Ok a -> f a = g a) -> obind x f = obind x g.
Proof. intros H. destruct x; cbn [obind]; [apply H; reflexivity|reflexivity|reflexivity]. Qed.

Lemma specs_fuel f1 : forall f2 p, (length p < f1)%nat -> (length p < f2)%nat -> read_specs f1 p = read_specs f2 p /\ (forall l q, read_specs f1 p = Ok (l, q) -> (length q < length p)%nat).
Proof.
  induction f1 as [|f1 IH]; intros f2 p L1 L2; [lia|]. destruct f2 as [|f2]; [lia|]. cbn [read_specs].
  destruct (next_uleb p) as [[name p1]| |] eqn:N1; cbn [obind]; try (split; [reflexivity|discriminate]). apply next_uleb_lt in N1.
  destruct (next_uleb p1) as [[form p2]| |] eqn:N2; cbn [obind]; try (split; [reflexivity|discriminate]). apply next_uleb_lt in N2.
  destruct ((u32 name =? 0) && (u32 form =? 0)); [split; [reflexivity|intros l q E; injection E as _ <-; lia]|].
  assert (V : forall v p3, (if u32 form =? 33 then next_uleb p2 else Ok (0, p2)) = Ok (v, p3) -> (length p3 <= length p2)%nat).
  { intros v p3. destruct (u32 form =? 33); intros E; [apply next_uleb_lt in E; lia|injection E as _ <-; lia]. }
  destruct (if u32 form =? 33 then next_uleb p2 else Ok (0, p2)) as [[v p3]| |]; cbn [obind]; try (split; [reflexivity|discriminate]). specialize (V v p3 eq_refl).
  destruct (IH f2 p3 ltac:(lia) ltac:(lia)) as (E & Q). rewrite <- E. split; [reflexivity|]. destruct (read_specs f1 p3) as [[l q]| |]; cbn [obind]; try discriminate. intros l' q' X. injection X as _ <-. specialize (Q l q eq_refl). lia.
Qed.
Lemma abbrevs_fuel f1 : forall f2 p acc, (length p < f1)%nat -> (length p < f2)%nat -> read_abbrevs f1 p acc = read_abbrevs f2 p acc.
Proof.
  induction f1 as [|f1 IH]; intros f2 p acc L1 L2; [lia|]. destruct f2 as [|f2]; [lia|]. cbn [read_abbrevs].
  apply obind_ext. intros [num p1] N1. apply next_uleb_lt in N1. destruct (u32 num =? 0); [reflexivity|].
  apply obind_ext. intros [tag p2] N2. apply next_uleb_lt in N2. apply obind_ext. intros c _. apply obind_ext. intros p3 A3. apply advance_le in A3.
  destruct (specs_fuel f1 f2 p3 ltac:(lia) ltac:(lia)) as (E & Q). rewrite <- E. apply obind_ext. intros [l p4] R. apply Q in R.
  destruct (u32 num =? zlen acc); [|reflexivity]. apply IH; lia.
Qed.

Ltac ladv := first [apply advance_le; eassumption].
Section Reader.
Context (en : endian) (version asz osz : Z).
Lemma skip_attr_fuel f1 : forall f2 p form, (length p < f1)%nat -> (length p < f2)%nat -> SkipAttribute en version asz osz f1 p form = SkipAttribute en version asz osz f2 p form /\
  (forall q, SkipAttribute en version asz osz f1 p form = Ok q -> (length q <= length p)%nat).
Proof.
  induction f1 as [|f1 IH]; intros f2 p form L1 L2; [lia|]. destruct f2 as [|f2]; [lia|].
  destruct (Z.eq_dec form 22) as [->|NF].
  { cbn [SkipAttribute]. destruct (next_uleb p) as [[v p1]| |] eqn:N; cbn [obind]; try (split; [reflexivity|discriminate]). apply next_uleb_lt in N.
    destruct (IH f2 p1 (u32 v) ltac:(lia) ltac:(lia)) as (E & Q). split; [exact E|]. intros q X. apply Q in X. lia. }
  cut (SkipAttribute en version asz osz (S f1) p form = SkipAttribute en version asz osz (S f2) p form /\ (forall q, SkipAttribute en version asz osz (S f1) p form = Ok q -> (length q <= length p)%nat)); [exact (fun x => x)|].
  cbn [SkipAttribute].
  repeat match goal with |- context [match ?x with _ => _ end] => is_var x; destruct x end; try (exfalso; apply NF; reflexivity);
    (split; [reflexivity|]); try discriminate; intros q X;
    repeat match goal with
    | H : obind ?x _ = Ok _ |- _ => let E := fresh "E" in destruct x as [?| |] eqn:E; cbn [obind] in H; try discriminate H
    | H : context [let (_, _) := ?x in _] |- _ => destruct x
    | H : (if ?b then _ else _) = Ok _ |- _ => destruct b
    end;
    try (apply advance_le in X; exact X); try (injection X as <-; first [apply Nat.le_refl|match goal with N : next_uleb _ = Ok _ |- _ => apply next_uleb_lt in N; lia end]).
Qed.
Lemma skip_die_le l : forall p q, SkipDIE en version asz osz p l = Ok q -> (length q <= length p)%nat.
Proof.
  induction l as [|a l IH]; intros p q E; cbn [SkipDIE] in E; [injection E as <-; lia|]. destruct (SkipAttribute en version asz osz (S (length p)) p (sp_form a)) as [p1| |] eqn:K; cbn [obind] in E; try discriminate.
  apply (proj2 (skip_attr_fuel (S (length p)) (S (length p)) p (sp_form a) (Nat.lt_succ_diag_r _) (Nat.lt_succ_diag_r _))) in K. apply IH in E. lia.
Qed.
Context {S : Type} (h : handler S) (s : sections).
Lemma process_attr_fuel f1 : forall f2 o p attr form value st, (length p < f1)%nat -> (length p < f2)%nat -> ProcessAttribute en version asz osz h s f1 o p attr form value st = ProcessAttribute en version asz osz h s f2 o p attr form value st /\
  (forall st' q, ProcessAttribute en version asz osz h s f1 o p attr form value st = Ok (st', q) -> (length q <= length p)%nat).
Proof.
  induction f1 as [|f1 IH]; intros f2 o p attr form value st L1 L2; [lia|]. destruct f2 as [|f2]; [lia|].
  destruct (Z.eq_dec form 22) as [->|NF].
  { cbn [ProcessAttribute]. destruct (next_uleb p) as [[v p1]| |] eqn:N; cbn [obind]; try (split; [reflexivity|discriminate]). apply next_uleb_lt in N.
    destruct (IH f2 o p1 attr (u32 v) 0 st ltac:(lia) ltac:(lia)) as (E & Q). split; [exact E|]. intros st' q X. apply Q in X. lia. }
  cbn [ProcessAttribute].
  repeat match goal with |- context [match ?x with _ => _ end] => is_var x; lazymatch type of x with Z => destruct x | positive => destruct x end end; try (exfalso; apply NF; reflexivity);
    (split; [reflexivity|]); try discriminate; intros st' q X;
    repeat match goal with
    | H : obind ?x _ = Ok _ |- _ => let E := fresh "E" in destruct x as [?| |] eqn:E; cbn [obind] in H; try discriminate H
    | H : context [let (_, _) := ?x in _] |- _ => destruct x
    | H : (if ?b then _ else _) = Ok _ |- _ => destruct b
    | H : match ?b with Some _ => _ | None => _ end = Ok _ |- _ => destruct b; try discriminate H
    end; try discriminate X;
    injection X as <- <-; first [apply Nat.le_refl|match goal with E : advance _ _ = Ok _ |- _ => apply advance_le in E; exact E | E : Ok ?a = Ok ?b |- (length ?b <= length ?a)%nat => injection E as <-; apply Nat.le_refl end].
Qed.
Lemma process_die_le l : forall o p st st' q, ProcessDIE en version asz osz h s o p l st = Ok (st', q) -> (length q <= length p)%nat.
Proof.
  induction l as [|a l IH]; intros o p st st' q E; cbn [ProcessDIE] in E; [injection E as _ <-; lia|].
  destruct (ProcessAttribute en version asz osz h s (Datatypes.S (length p)) o p (sp_name a) (sp_form a) (if sp_form a =? 33 then sp_value a else 0) st) as [[st1 p1]| |] eqn:K; cbn [obind] in E; try discriminate.
  apply (proj2 (process_attr_fuel (Datatypes.S (length p)) (Datatypes.S (length p)) o p (sp_name a) (sp_form a) _ st (Nat.lt_succ_diag_r _) (Nat.lt_succ_diag_r _))) in K. apply IH in E. lia.
Qed.
Lemma dies_fuel f1 : forall f2 abs fin p stack st, (length p < f1)%nat -> (length p < f2)%nat ->
  ProcessDIEs en version asz osz h s f1 abs fin p stack st = ProcessDIEs en version asz osz h s f2 abs fin p stack st.
Proof.
  induction f1 as [|f1 IH]; intros f2 abs fin p stack st L1 L2; [lia|]. destruct f2 as [|f2]; [lia|]. cbn [ProcessDIEs].
  destruct (fin <=? zlen (s_info s) - zlen p); [reflexivity|]. apply obind_ext. intros [num p1] N. apply next_uleb_lt in N.
  destruct (num =? 0). { destruct stack as [|o stack]; [apply IH; lia|]. apply obind_ext. intros hs _. apply IH; lia. }
  destruct (zlen abs <=? num); [reflexivity|]. set (a := nth _ _ _). clearbody a. apply obind_ext. intros [w hs] _.
  apply obind_ext. intros [st2 p2] K.
  assert (L : (length p2 <= length p1)%nat).
  { destruct w; [apply process_die_le in K; exact K|]. destruct (SkipDIE en version asz osz p1 (ab_specs a)) as [q| |] eqn:SK; cbn [obind] in K; try discriminate. injection K as _ <-. apply skip_die_le in SK. exact SK. }
  destruct (ab_children a); [apply IH; lia|]. apply obind_ext. intros hs2 _. apply IH; lia.
Qed.
End Reader.

Section Units.
Context (en : endian).
Lemma mask_nonneg w b : 0 <= mask w b.
Proof. unfold mask. apply Z.land_nonneg. right. lia. Qed.
Lemma lor_pos a b : 0 <= a -> 0 <= b -> 0 <= Z.lor a b.
Proof. intros. apply Z.lor_nonneg. auto. Qed.
Lemma sh32_nonneg b n : 0 <= sh32 b n. Proof. unfold sh32, u32, w32. apply Z.mod_pos_bound. lia. Qed.
Lemma sh64_nonneg b n : 0 <= sh64 b n. Proof. unfold sh64, u64, w64. apply Z.mod_pos_bound. lia. Qed.
Lemma initial_length_nonneg buf l n o : ReadInitialLength en buf = Ok (l, n, o) -> 0 <= l.
Proof.
  unfold ReadInitialLength. destruct (ReadFourBytes en buf) as [v| |] eqn:R; cbn [obind]; try discriminate.
  assert (0 <= v). { destruct buf as [|b0 [|b1 [|b2 [|b3 t]]]]; try discriminate R. cbn [ReadFourBytes] in R. injection R as <-. destruct en; repeat apply lor_pos; first [apply mask_nonneg|apply sh32_nonneg]. }
  destruct (v =? 4294967295); [|intros E; injection E as <- _ _; assumption]. destruct (ReadSized en 8 (skipn 4 buf)) as [w| |] eqn:R8; cbn [obind]; try discriminate. intros E. injection E as <- _ _.
  change (ReadSized en 8 (skipn 4 buf)) with (ReadEightBytes en (skipn 4 buf)) in R8. remember (skipn 4 buf) as q eqn:Q. clear Q.
  do 8 (destruct q as [|? q]; [discriminate R8|]). cbn [ReadEightBytes] in R8. injection R8 as <-. destruct en; repeat apply lor_pos; first [apply mask_nonneg|apply sh64_nonneg].
Qed.
Lemma header_length buf hd : ReadHeader en buf = Ok (Some hd) -> 1 <= hd_length hd /\ hd_length hd + (if hd_offset_size hd =? 8 then 12 else 4) <= zlen buf.
Proof.
  unfold ReadHeader. destruct (zlen buf <=? 4); [discriminate|]. destruct (ReadInitialLength en buf) as [[[len pos] osz]| |] eqn:RI; cbn [obind]; try discriminate. apply initial_length_nonneg in RI.
  intros X. destruct (len =? 0) eqn:L0; cbn [orb] in X; [discriminate|].
  repeat match goal with
  | H : obind ?x _ = Ok _ |- _ => let E := fresh "E" in destruct x as [?| |] eqn:E; cbn [obind] in H; try discriminate H; clear E
  | H : (if ?b then Ok None else _) = Ok _ |- _ => destruct b eqn:?; [discriminate H|]
  | H : (if ?b then _ else Ok _) = Ok _ |- _ => destruct b eqn:?; [discriminate H|]
  | H : Ok (Some _) = Ok (Some _) |- _ => injection H as <-; cbn [hd_length hd_offset_size]
  | H : (if ?b then _ else _) = Ok (Some _) |- _ => destruct b
  end; destruct (osz =? 8); lia.
Qed.
Context {S : Type} (h : handler S) (s : sections) (Hlen : zlen (s_info s) < 2 ^ 64).
Lemma start_length pos hs len hs' : 0 <= pos -> Start en h s pos hs = Ok (len, false, hs') -> 1 <= len.
Proof.
  intros P. unfold Start. destruct (ReadHeader en (at_pos pos (s_info s))) as [[hd|]| |] eqn:RH; cbn [obind]; try discriminate. apply header_length in RH. destruct RH as (H1 & H2).
  assert (LA : zlen (at_pos pos (s_info s)) <= zlen (s_info s)). { unfold at_pos. destruct (pos <? zlen (s_info s)); [|apply zlen_nonneg]. unfold zlen. rewrite skipn_length. lia. }
  assert (OL : 1 <= u64 (hd_length hd + (if hd_offset_size hd =? 8 then 12 else 4))). { unfold u64, w64. rewrite Z.mod_small; destruct (hd_offset_size hd =? 8); lia. }
  set (ol := u64 _) in *. clearbody ol. intros X.
  repeat match goal with
  | H : obind ?x _ = Ok _ |- _ => let E := fresh "E" in destruct x as [?| |] eqn:E; cbn [obind] in H; try discriminate H; clear E
  | H : context [let (_, _) := ?x in _] |- _ => destruct x
  | H : Ok (_, true, _) = Ok (_, false, _) |- _ => discriminate H
  | H : Ok (_, false, _) = Ok (_, false, _) |- _ => injection H as <- _; exact OL
  | H : (if ?b then _ else _) = Ok (_, false, _) |- _ => destruct b
  | H : match ?b with Some _ => _ | None => _ end = Ok (_, false, _) |- _ => destruct b
  end.
Qed.
Lemma units_fuel f1 : forall f2 pos hs, 0 <= pos -> zlen (s_info s) - pos <= Z.of_nat f1 -> zlen (s_info s) - pos <= Z.of_nat f2 -> read_units en h s f1 pos hs = read_units en h s f2 pos hs.
Proof.
  induction f1 as [|f1 IH]; intros f2 pos hs P L1 L2; destruct f2 as [|f2]; cbn [read_units]; destruct (zlen (s_info s) <=? pos) eqn:F; try reflexivity; try lia.
  apply obind_ext. intros [[len m] hs1] ST. destruct m; [reflexivity|]. apply start_length in ST; [|exact P]. apply IH; lia.
Qed.
End Units.
