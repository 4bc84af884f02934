From Verif Require Import Base ByteModel ByteSpec ByteProofs ByteProps DieModel DieSpec.

Lemma zlen_len {A} (l : list A) n : zlen l = Z.of_nat n <-> length l = n.
Proof. unfold zlen. lia. Qed.
Lemma advance_app bs rest : advance (zlen bs) (bs ++ rest) = Ok rest.
Proof.
  unfold advance. rewrite zlen_app. pose proof (zlen_nonneg rest). assert (zlen bs <=? zlen bs + zlen rest = true) as -> by lia.
  f_equal. unfold zlen. rewrite Nat2Z.id. rewrite skipn_app, skipn_all, Nat.sub_diag. reflexivity.
Qed.
Lemma at_pos_app bs rest : rest <> [] -> at_pos (zlen bs) (bs ++ rest) = rest.
Proof.
  intros N. unfold at_pos. rewrite zlen_app. assert (0 < zlen rest) by (destruct rest; [congruence|rewrite zlen_cons; pose proof (zlen_nonneg rest); lia]).
  assert (zlen bs <? zlen bs + zlen rest = true) as -> by lia. unfold zlen. rewrite Nat2Z.id, skipn_app, skipn_all, Nat.sub_diag. reflexivity.
Qed.
Lemma at_pos_app0 bs rest : at_pos (zlen bs) (bs ++ rest) = rest.
Proof.
  destruct rest as [|x r] eqn:E; [|rewrite <- E; apply at_pos_app; congruence]. rewrite app_nil_r. unfold at_pos. rewrite Z.ltb_irrefl. reflexivity.
Qed.
Lemma leb_nonempty bs : leb_shape bs -> 1 <= zlen bs.
Proof. destruct bs; [intros []|]. intros _. rewrite zlen_cons. pose proof (zlen_nonneg bs). lia. Qed.
Lemma uleb_nonempty bs v : uleb bs v -> 1 <= zlen bs.
Proof. intros (H & _). apply leb_nonempty, H. Qed.
Lemma sleb_nonempty bs v : sleb bs v -> 1 <= zlen bs.
Proof. intros (H & _). apply leb_nonempty, H. Qed.
Lemma read_uleb bs v rest : uleb bs v -> ReadUnsignedLEB128 (bs ++ rest) = Ok (v, zlen bs).
Proof.
  intros (A & B & C & D). rewrite C23_unsigned_leb128 by auto. pose proof (leb_bits_bound bs A). rewrite C, Z.mod_small by lia. reflexivity.
Qed.
Lemma uleb_nonneg bs v : uleb bs v -> 0 <= v.
Proof. intros (A & B & C & D). pose proof (leb_bits_bound bs A). lia. Qed.
Lemma read_sleb bs v rest : sleb bs v -> ReadSignedLEB128 true (bs ++ rest) = Ok (v, zlen bs).
Proof. intros (A & B & C & D). destruct (C23_signed_leb128 bs rest) as [H _]; auto; [lia|]. rewrite H, C. reflexivity. Qed.
Lemma next_uleb_app bs v rest : uleb bs v -> next_uleb (bs ++ rest) = Ok (v, rest).
Proof. intros U. unfold next_uleb. rewrite (read_uleb _ _ _ U). cbn [obind]. rewrite advance_app. reflexivity. Qed.
Lemma leb_bits_sleb bs v : sleb bs v -> 0 <= v -> leb_bits bs = v.
Proof.
  intros (A & B & C & D) V. unfold leb_signed in C. pose proof (leb_bits_bound bs A). destruct (leb_bits bs <? 2 ^ (7 * zlen bs - 1)); lia.
Qed.
Lemma next_uleb_sleb bs v rest : sleb bs v -> exists w, next_uleb (bs ++ rest) = Ok (w, rest) /\ (0 <= v < 2 ^ 32 -> w = v).
Proof.
  intros U. destruct U as (A & B & C & D). exists (leb_bits bs mod 2 ^ 64). split.
  - unfold next_uleb. rewrite C23_unsigned_leb128 by auto. cbn [obind]. rewrite advance_app. reflexivity.
  - intros V. rewrite (leb_bits_sleb bs v); [|repeat split; auto; lia|lia]. apply Z.mod_small. lia.
Qed.
Lemma u32_small v : 0 <= v < 2 ^ 32 -> u32 v = v.
Proof. intros H. unfold u32, w32. apply Z.mod_small. lia. Qed.

Section Fixed.
Context (en : endian).
Lemma fixed1 bs v rest : fixed en 1 bs v -> ReadOneByte (bs ++ rest) = Ok v.
Proof.
  intros (L & F & E). destruct (C24_fixed_width bs rest F) as (H & _). rewrite H by (unfold zlen in L; lia). f_equal. rewrite <- E.
  destruct bs as [|b [|]]; unfold zlen in L; cbn in L; try lia. destruct en; reflexivity.
Qed.
Lemma fixed2 bs v rest : fixed en 2 bs v -> ReadTwoBytes en (bs ++ rest) = Ok v.
Proof. intros (L & F & E). destruct (C24_fixed_width bs rest F) as (_ & H & _). destruct (H ltac:(unfold zlen in L; lia)) as (A & B). destruct en; cbn in E; rewrite <- E; [exact B|exact A]. Qed.
Lemma fixed3 bs v rest : fixed en 3 bs v -> ReadThreeBytes en (bs ++ rest) = Ok v.
Proof. intros (L & F & E). destruct (C24_fixed_width bs rest F) as (_ & _ & H & _). destruct (H ltac:(unfold zlen in L; lia)) as (A & B). destruct en; cbn in E; rewrite <- E; [exact B|exact A]. Qed.
Lemma fixed4 bs v rest : fixed en 4 bs v -> ReadFourBytes en (bs ++ rest) = Ok v.
Proof. intros (L & F & E). destruct (C24_fixed_width bs rest F) as (_ & _ & _ & H & _). destruct (H ltac:(unfold zlen in L; lia)) as (A & B). destruct en; cbn in E; rewrite <- E; [exact B|exact A]. Qed.
Lemma fixed8 bs v rest : fixed en 8 bs v -> ReadEightBytes en (bs ++ rest) = Ok v.
Proof. intros (L & F & E). destruct (C24_fixed_width bs rest F) as (_ & _ & _ & _ & H). destruct (H ltac:(unfold zlen in L; lia)) as (A & B). destruct en; cbn in E; rewrite <- E; [exact B|exact A]. Qed.
Lemma fixed_sized n bs v rest : n = 4 \/ n = 8 -> fixed en n bs v -> ReadSized en n (bs ++ rest) = Ok v.
Proof. intros [-> | ->] F; unfold ReadSized; cbn [Z.eqb Pos.eqb]; [apply fixed4, F|apply fixed8, F]. Qed.
Lemma fixed_adv n bs v rest : fixed en n bs v -> advance n (bs ++ rest) = Ok rest.
Proof. intros (<- & _). apply advance_app. Qed.
Lemma read_initial_length il osz len rest : initial_length en il osz len -> ReadInitialLength en (il ++ rest) = Ok (len, zlen il, osz) /\ zlen il = (if osz =? 8 then 12 else 4) /\ (osz = 4 \/ osz = 8).
Proof.
  intros [(-> & F & B)|(-> & l8 & -> & F)]; unfold ReadInitialLength.
  - rewrite (fixed4 _ _ _ F). cbn [obind]. assert (len =? 4294967295 = false) as -> by lia. destruct F as (L & _). rewrite L. auto.
  - assert (E : ReadFourBytes en (([255; 255; 255; 255] ++ l8) ++ rest) = Ok 4294967295) by (destruct en; reflexivity). rewrite E. cbn [obind Z.eqb Pos.eqb]. change (skipn 4 (([255; 255; 255; 255] ++ l8) ++ rest)) with (l8 ++ rest).
    unfold ReadSized. cbn [Z.eqb Pos.eqb]. rewrite (fixed8 _ _ _ F). cbn [obind]. destruct F as (L & _). rewrite zlen_app, L. auto.
Qed.
End Fixed.

(** *** Abbreviations *)
Definition spec_of (a : decl_attr) (sp : spec) : Prop :=
  sp_name sp = a_name a /\ sp_form sp = a_form a /\ (a_form a = 33 -> 0 <= a_const a < 2 ^ 32 -> sp_value sp = a_const a).
Definition abbrev_of (d : decl) (ab : abbrev) : Prop := ab_tag ab = d_tag d /\ ab_children ab = d_children d /\ Forall2 spec_of (d_attrs d) (ab_specs ab).
Lemma read_specs_ok l bs : enc_decl_attrs l bs -> forall fuel rest, (length bs <= fuel)%nat -> exists sps, read_specs fuel (bs ++ rest) = Ok (sps, rest) /\ Forall2 spec_of l sps.
Proof.
  induction 1 as [b1 b2 U1 U2|a l b1 b2 b3 bs U1 L1 U2 L2 NZ CO _ IH]; intros fuel rest LF.
  - pose proof (uleb_nonempty _ _ U1) as P1. rewrite app_length in LF. unfold zlen in P1. destruct fuel as [|fuel]; [lia|]. cbn [read_specs]. rewrite <- app_assoc, (next_uleb_app _ _ _ U1). cbn [obind]. rewrite (next_uleb_app _ _ _ U2). cbn [obind]. exists []. split; [reflexivity|constructor].
  - pose proof (uleb_nonempty _ _ U1) as P1. pose proof (uleb_nonneg _ _ U1) as N1. pose proof (uleb_nonneg _ _ U2) as N2. rewrite !app_length in LF. unfold zlen in P1. destruct fuel as [|fuel]; [lia|]. cbn [read_specs]. rewrite <- !app_assoc, (next_uleb_app _ _ _ U1). cbn [obind]. rewrite (next_uleb_app _ _ _ U2). cbn [obind].
    rewrite !u32_small by lia. assert ((a_name a =? 0) && (a_form a =? 0) = false) as -> by lia.
    assert (E : exists w, (if a_form a =? 33 then next_uleb (b3 ++ bs ++ rest) else Ok (0, b3 ++ bs ++ rest)) = Ok (w, bs ++ rest) /\ (a_form a = 33 -> 0 <= a_const a < 2 ^ 32 -> w = a_const a)).
    { destruct (Z.eqb_spec (a_form a) 33) as [E|E].
      - destruct (next_uleb_sleb b3 (a_const a) (bs ++ rest) CO) as (w & W & V). exists w. auto.
      - subst b3. exists 0. split; [reflexivity|]. intros E'. congruence. }
    destruct E as (w & -> & V). cbn [obind]. destruct (IH fuel rest ltac:(lia)) as (sps & -> & F). cbn [obind]. eexists. split; [reflexivity|]. constructor; [|exact F].
    split; [reflexivity|]. split; [reflexivity|]. cbn [sp_value]. intros E B. rewrite (V E B). apply u32_small, B.
Qed.
Lemma read_abbrevs_ok n l bs : enc_decls n l bs -> forall fuel rest acc, (length bs <= fuel)%nat -> n = zlen acc -> exists abs, read_abbrevs fuel (bs ++ rest) acc = Ok (acc ++ abs) /\ Forall2 abbrev_of l abs.
Proof.
  induction 1 as [n b U|n d l b1 b2 c b3 bs U1 L1 U2 L2 -> DA _ IH]; intros fuel rest acc LF NA.
  - pose proof (uleb_nonempty _ _ U) as P1. unfold zlen in P1. destruct fuel as [|fuel]; [lia|]. cbn [read_abbrevs]. rewrite (next_uleb_app _ _ _ U). cbn [obind]. exists []. rewrite app_nil_r. split; [reflexivity|constructor].
  - pose proof (uleb_nonempty _ _ U1) as P1. pose proof (uleb_nonneg _ _ U2) as N2. rewrite !app_length in LF. unfold zlen in P1. destruct fuel as [|fuel]; [lia|]. cbn [read_abbrevs]. rewrite <- !app_assoc, (next_uleb_app _ _ _ U1). cbn [obind].
    rewrite (u32_small n) by lia. assert (n =? 0 = false) as -> by lia. rewrite (next_uleb_app _ _ _ U2). cbn [obind app]. set (c := if d_children d then 1 else 0).
    assert (RC : ReadOneByte (c :: b3 ++ bs ++ rest) = Ok c) by (subst c; destruct (d_children d); reflexivity). rewrite RC. cbn [obind].
    change (c :: b3 ++ bs ++ rest) with ([c] ++ (b3 ++ bs ++ rest)). change 1 with (zlen [c]) at 1. rewrite advance_app. cbn [obind]. destruct (read_specs_ok _ _ DA fuel (bs ++ rest) ltac:(lia)) as (sps & -> & F). cbn [obind].
    rewrite NA, Z.eqb_refl. match goal with |- context [acc ++ [?x]] => set (ab := x) end. destruct (IH fuel rest (acc ++ [ab]) ltac:(lia) ltac:(rewrite zlen_app, NA; reflexivity)) as (abs & -> & FA).
    exists (ab :: abs). rewrite <- app_assoc. split; [reflexivity|]. constructor; [|exact FA]. split; [subst ab; cbn [ab_tag]; apply u32_small; lia|]. split; [subst ab c; cbn [ab_children]; destruct (d_children d); reflexivity|exact F].
Qed.

Lemma f2_cons {A B} (R : A -> B -> Prop) a l b l' : Forall2 R (a :: l) (b :: l') -> R a b /\ Forall2 R l l'.
Proof. inversion 1; auto. Qed.
(** *** Attributes *)
Lemma strlen_app str rest : Forall (fun b => 0 < b < 256) str -> strlen (str ++ 0 :: rest) = Ok (zlen str).
Proof.
  induction 1 as [|b l B _ IH]; [reflexivity|]. cbn [app strlen]. assert (b =? 0 = false) as -> by lia. rewrite IH. cbn [obind]. rewrite zlen_cons. f_equal. lia.
Qed.
Lemma c_string_app str rest : Forall (fun b => 0 < b < 256) str -> c_string (str ++ 0 :: rest) = Ok str.
Proof. intros F. unfold c_string. rewrite (strlen_app _ _ F). cbn [obind]. f_equal. unfold zlen. rewrite Nat2Z.id, firstn_app, firstn_all, Nat.sub_diag. cbn. apply app_nil_r. Qed.
Lemma cut_string l str : cut l = Some str -> c_string l = Ok str.
Proof.
  unfold c_string. revert str. induction l as [|b l IH]; intros str E; cbn [cut strlen] in *; [discriminate|]. destruct (Z.eqb_spec b 0).
  - injection E as <-. reflexivity.
  - destruct (cut l) as [s'|]; [|discriminate]. injection E as <-. specialize (IH s' eq_refl). destruct (strlen l) as [n'| |] eqn:SL; try discriminate. cbn [obind] in *. injection IH as IH.
    assert (0 <= n') by (clear - SL; revert n' SL; induction l as [|c l IHl]; intros m H; cbn [strlen] in H; [discriminate|]; destruct (c =? 0); [injection H as <-; lia|destruct (strlen l); try discriminate; cbn [obind] in H; injection H as <-; specialize (IHl _ eq_refl); lia]).
    replace (Z.to_nat (n' + 1)) with (S (Z.to_nat n')) by lia. cbn [firstn]. rewrite IH. reflexivity.
Qed.
Lemma string_in_ok sec o v : string_in sec o = Some v -> (let! x := get_string_with_offsets sec o in Ok (Some (VString x))) = v.
Proof.
  unfold string_in, get_string_with_offsets. destruct (zlen sec <=? o); [intros E; injection E as <-; reflexivity|]. destruct (cut _) as [str|] eqn:C; [|discriminate]. intros E. injection E as <-. rewrite (cut_string _ _ C). reflexivity.
Qed.
Lemma advance_block n (l b rest : list Z) : zlen l = n -> advance (n + zlen b) ((l ++ b) ++ rest) = Ok rest.
Proof. intros <-. rewrite <- zlen_app. apply advance_app. Qed.
Lemma advance_block' n (l b rest : list Z) : zlen l = n -> advance (zlen b + n) ((l ++ b) ++ rest) = Ok rest.
Proof. rewrite Z.add_comm. apply advance_block. Qed.
Lemma block_bytes (l b rest : list Z) : firstn (Z.to_nat (Z.min (zlen b) (zlen ((l ++ b) ++ rest)))) (skipn (Z.to_nat (zlen l)) ((l ++ b) ++ rest)) = b.
Proof.
  rewrite !zlen_app. pose proof (zlen_nonneg l). pose proof (zlen_nonneg rest). rewrite Z.min_l by lia. unfold zlen. rewrite !Nat2Z.id, <- app_assoc, skipn_app, skipn_all, Nat.sub_diag. cbn [app skipn]. rewrite firstn_app, firstn_all, Nat.sub_diag. cbn. apply app_nil_r.
Qed.
Ltac in_cases H := cbn [In forms1] in H; repeat (destruct H as [H|H]; [first [injection H as <- <-|rewrite <- H in *; clear H|subst]|]); try destruct H.

Lemma entry_read (en : endian) table pos n v : Forall is_byte table -> n = 4 \/ n = 8 -> entry_of en table pos n = Some v -> ReadSized en n (if pos <? 0 then [] else at_pos pos table) = Ok v.
Proof.
  intros F N E. unfold entry_of in E. destruct ((0 <=? pos) && (pos + n <=? zlen table)) eqn:C; [|discriminate]. injection E as <-. assert (pos <? 0 = false) as -> by lia. unfold at_pos. assert (pos <? zlen table = true) as -> by lia.
  set (q := skipn (Z.to_nat pos) table). assert (LQ : n <= zlen q) by (subst q; unfold zlen in *; rewrite skipn_length; lia). assert (FQ : Forall is_byte q).
  { subst q. rewrite <- (firstn_skipn (Z.to_nat pos) table) in F. apply Forall_app in F. apply F. }
  rewrite <- (firstn_skipn (Z.to_nat n) q) at 1. apply fixed_sized; [exact N|]. split; [unfold zlen in *; rewrite firstn_length; lia|]. split; [|reflexivity]. rewrite <- (firstn_skipn (Z.to_nat n) q) in FQ. apply Forall_app in FQ. apply FQ.
Qed.
Section Attr.
Context (en : endian) (version asz osz : Z).
Context (Hasz : asz = 4 \/ asz = 8) (Hosz : osz = 4 \/ osz = 8).
Notation enc_value := (enc_value en version asz osz).
Notation Skip := (SkipAttribute en version asz osz).

Lemma skip_ok f bs real it : enc_value f bs real it -> forall fuel rest, (length bs < fuel)%nat -> Skip fuel (bs ++ rest) f = if real =? 31 then Abort else Ok rest.
Proof.
  induction 1; intros fuel rest LF; (destruct fuel as [|fuel]; [lia|]).
  - in_cases H; cbn [SkipAttribute Z.eqb Pos.eqb]; apply (fixed_adv en _ _ v), H0.
  - reflexivity.
  - in_cases H; cbn [SkipAttribute Z.eqb Pos.eqb]; rewrite (next_uleb_app _ _ _ H0); reflexivity.
  - cbn [SkipAttribute Z.eqb Pos.eqb]. rewrite (read_sleb _ _ _ H). cbn [obind]. apply advance_app.
  - cbn [SkipAttribute Z.eqb Pos.eqb]. apply (fixed_adv en _ _ v), H.
  - cbn [SkipAttribute Z.eqb Pos.eqb]. destruct (version =? 2); apply (fixed_adv en _ _ v), H.
  - cbn [SkipAttribute Z.eqb Pos.eqb]. apply (fixed_adv en _ _ v), H.
  - cbn [SkipAttribute Z.eqb Pos.eqb]. rewrite <- app_assoc. cbn [app]. rewrite (strlen_app _ _ H). cbn [obind]. change (s ++ 0 :: rest) with (s ++ [0] ++ rest). rewrite app_assoc. replace (zlen s + 1) with (zlen (s ++ [0])) by (rewrite zlen_app; reflexivity). apply advance_app.
  - in_cases H; cbn [SkipAttribute Z.eqb Pos.eqb]; rewrite <- app_assoc; [rewrite (fixed1 en _ _ _ H0)|rewrite (fixed2 en _ _ _ H0)|rewrite (fixed4 en _ _ _ H0)]; cbn [obind]; rewrite app_assoc; apply advance_block; apply H0.
  - in_cases H; cbn [SkipAttribute Z.eqb Pos.eqb]; rewrite <- app_assoc, (read_uleb _ _ _ H0); cbn [obind]; rewrite app_assoc; apply advance_block'; reflexivity.
  - cbn [SkipAttribute Z.eqb Pos.eqb]. apply (fixed_adv en _ _ o), H.
  - reflexivity.
  - in_cases H; cbn [SkipAttribute Z.eqb Pos.eqb]; apply (fixed_adv en _ _ i), H0.
  - in_cases H; cbn [SkipAttribute Z.eqb Pos.eqb]; rewrite (next_uleb_app _ _ _ H0); reflexivity.
  - in_cases H; cbn [SkipAttribute Z.eqb Pos.eqb]; apply (fixed_adv en _ _ i), H0.
  - in_cases H; cbn [SkipAttribute Z.eqb Pos.eqb]; rewrite (next_uleb_app _ _ _ H0); reflexivity.
  - reflexivity.
  - cbn [SkipAttribute Z.eqb Pos.eqb]. rewrite <- H. apply advance_app.
  - in_cases H; cbn [SkipAttribute Z.eqb Pos.eqb]; apply (fixed_adv en _ _ v), H0.
  - cbn [SkipAttribute Z.eqb Pos.eqb]. rewrite (next_uleb_app _ _ _ H). reflexivity.
  - cbn [SkipAttribute]. pose proof (uleb_nonempty _ _ H) as P1. pose proof (uleb_nonneg _ _ H). rewrite app_length in LF. unfold zlen in P1. rewrite <- app_assoc, (next_uleb_app _ _ _ H). cbn [obind]. rewrite u32_small by lia. apply IHenc_value. lia.
Qed.

Context {S : Type} (h : handler S) (s : sections) (u : dunit) (Uv : u_version u = version) (Ua : u_asz u = asz) (Uo : u_osz u = osz).
Context (Bo : forall b, s_str_offsets s = Some b -> Forall is_byte b) (Ba : forall b, s_addr s = Some b -> Forall is_byte b).
Notation Process := (ProcessAttribute en version asz osz h s).
(** what the handler is given, and the position behind *)
Definition result (offset : Z) (a : decl_attr) (real : Z) (st : S * option (list Z)) (rest : list Z) (r : outcome (option value)) : outcome ((S * option (list Z)) * list Z) :=
  match r with Ok (Some v) => let! st := give h offset a real v st in Ok (st, rest) | Ok None => Ok (st, rest) | Abort => Abort | UB => UB end.
Lemma not_const f bs real it : enc_value f bs real it -> f <> 33 -> it <> IConst.
Proof. induction 1; try discriminate; try congruence. auto. Qed.
Lemma deliver_give offset a real v st : deliver h offset (a_name a) real v st = give h offset a real v st.
Proof. reflexivity. Qed.
Lemma process_ok f bs real it : enc_value f bs real it -> forall fuel rest offset a value st r, (length bs < fuel)%nat -> value_of en s h u a it (fst st) = Some r -> (it = IConst -> 0 <= a_const a < 2 ^ 32 -> value = a_const a) ->
  Process fuel offset (bs ++ rest) (a_name a) f value st = result offset a real st rest r.
Proof.
  induction 1; intros fuel rest offset a value st r LF VO CO; (destruct fuel as [|fuel]; [lia|]).
  - injection VO as <-. in_cases H; cbn [ProcessAttribute Z.eqb Pos.eqb result];
      match type of H0 with fixed _ ?n _ _ => match n with 1 => rewrite (fixed1 en _ _ _ H0) | 2 => rewrite (fixed2 en _ _ _ H0) | 4 => rewrite (fixed4 en _ _ _ H0) | 8 => rewrite (fixed8 en _ _ _ H0) end end; cbn [obind]; rewrite (fixed_adv en _ _ v rest H0), deliver_give; reflexivity.
  - injection VO as <-. reflexivity.
  - injection VO as <-. in_cases H; cbn [ProcessAttribute Z.eqb Pos.eqb result]; rewrite (read_uleb _ _ _ H0); cbn [obind]; rewrite advance_app, deliver_give; reflexivity.
  - injection VO as <-. cbn [ProcessAttribute result]. rewrite (read_sleb _ _ _ H). cbn [obind]. rewrite advance_app, deliver_give. reflexivity.
  - injection VO as <-. cbn [ProcessAttribute result]. rewrite (fixed_sized en _ _ _ _ Hasz H). cbn [obind]. rewrite (fixed_adv en _ _ v rest H), deliver_give. reflexivity.
  - injection VO as <-. cbn [ProcessAttribute result]. destruct (version =? 2); [rewrite (fixed_sized en _ _ _ _ Hasz H)|rewrite (fixed_sized en _ _ _ _ Hosz H)]; cbn [obind]; rewrite (fixed_adv en _ _ v rest H), deliver_give; reflexivity.
  - injection VO as <-. cbn [ProcessAttribute result]. rewrite (fixed_sized en _ _ _ _ Hosz H). cbn [obind]. rewrite (fixed_adv en _ _ v rest H), deliver_give. reflexivity.
  - injection VO as <-. cbn [ProcessAttribute result]. rewrite <- app_assoc. cbn [app]. rewrite (c_string_app _ _ H). cbn [obind]. change (s0 ++ 0 :: rest) with (s0 ++ [0] ++ rest). rewrite app_assoc. replace (zlen s0 + 1) with (zlen (s0 ++ [0])) by (rewrite zlen_app; reflexivity). rewrite advance_app, deliver_give. reflexivity.
  - injection VO as <-. assert (LL : zlen l = n) by apply H0. pose proof (block_bytes l b rest) as BB. in_cases H; cbn [ProcessAttribute Z.eqb Pos.eqb result];
      match type of H0 with fixed _ ?n _ _ => match n with 1 => assert (RR := fixed1 en _ _ (b ++ rest) H0) | 2 => assert (RR := fixed2 en _ _ (b ++ rest) H0) | 4 => assert (RR := fixed4 en _ _ (b ++ rest) H0) end end; rewrite app_assoc in RR; rewrite RR; cbn [obind]; rewrite (advance_block _ l b rest LL); rewrite LL in BB;
      match type of BB with context [Z.to_nat ?k] => change (Z.to_nat k) with (Pos.to_nat 1) in BB || idtac end; match type of LL with _ = ?k => let m := eval compute in (Z.to_nat k) in change (Z.to_nat k) with m in BB end; rewrite BB, deliver_give; reflexivity.
  - injection VO as <-. pose proof (block_bytes l b rest) as BB. in_cases H; cbn [ProcessAttribute Z.eqb Pos.eqb result]; assert (RR := read_uleb _ _ (b ++ rest) H0); rewrite app_assoc in RR; rewrite RR; cbn [obind]; rewrite (advance_block' _ l b rest eq_refl), BB, deliver_give; reflexivity.
  - cbn [value_of] in VO. cbn [ProcessAttribute]. destruct (s_str s) as [sec|]; [|injection VO as <-; reflexivity]. rewrite (fixed_sized en _ _ _ _ Hosz H). cbn [obind]. rewrite <- (string_in_ok _ _ _ VO). destruct (get_string_with_offsets sec o); cbn [obind result]; try reflexivity. rewrite (fixed_adv en _ _ o rest H), deliver_give. reflexivity.
  - cbn [value_of] in VO. cbn [ProcessAttribute]. destruct (s_line_str s) as [sec|]; [|injection VO as <-; reflexivity]. rewrite (fixed_sized en _ _ _ _ Hosz H). cbn [obind]. rewrite <- (string_in_ok _ _ _ VO). destruct (get_string_with_offsets sec o); cbn [obind result]; try reflexivity. rewrite (fixed_adv en _ _ o rest H), deliver_give. reflexivity.
  - assert (IS : (let! x := indexed_string en version osz h s i st in Ok (Some (VString x))) = r).
    { cbn [value_of] in VO. unfold indexed_string. destruct (s_str s) as [sec|]; [|injection VO as <-; reflexivity]. destruct (s_str_offsets s) as [table|] eqn:ST; [|injection VO as <-; reflexivity]. destruct (entry_of _ _ _ _) as [o|] eqn:EO; [|discriminate]. rewrite Uo, Uv in EO.
      replace (if version =? 5 then h_str_base h (fst st) + i * osz else i * osz) with ((if version =? 5 then h_str_base h (fst st) else 0) + i * osz) by (destruct (version =? 5); lia). rewrite (entry_read en _ _ _ _ (Bo _ eq_refl) Hosz EO). cbn [obind]. apply string_in_ok, VO. }
    rewrite <- IS. in_cases H; cbn [ProcessAttribute Z.eqb Pos.eqb];
      match type of H0 with fixed _ ?n _ _ => match n with 1 => rewrite (fixed1 en _ _ _ H0) | 2 => rewrite (fixed2 en _ _ _ H0) | 3 => rewrite (fixed3 en _ _ _ H0) | 4 => rewrite (fixed4 en _ _ _ H0) end end; cbn [obind]; (destruct (indexed_string en version osz h s i st); cbn [obind result]; try reflexivity); rewrite (fixed_adv en _ _ i rest H0), deliver_give; reflexivity.
  - assert (IS : (let! x := indexed_string en version osz h s i st in Ok (Some (VString x))) = r).
    { cbn [value_of] in VO. unfold indexed_string. destruct (s_str s) as [sec|]; [|injection VO as <-; reflexivity]. destruct (s_str_offsets s) as [table|] eqn:ST; [|injection VO as <-; reflexivity]. destruct (entry_of _ _ _ _) as [o|] eqn:EO; [|discriminate]. rewrite Uo, Uv in EO.
      replace (if version =? 5 then h_str_base h (fst st) + i * osz else i * osz) with ((if version =? 5 then h_str_base h (fst st) else 0) + i * osz) by (destruct (version =? 5); lia). rewrite (entry_read en _ _ _ _ (Bo _ eq_refl) Hosz EO). cbn [obind]. apply string_in_ok, VO. }
    rewrite <- IS. in_cases H; cbn [ProcessAttribute Z.eqb Pos.eqb]; rewrite (read_uleb _ _ _ H0); cbn [obind]; (destruct (indexed_string en version osz h s i st); cbn [obind result]; try reflexivity); rewrite advance_app, deliver_give; reflexivity.
  - cbn [value_of] in VO. destruct (Z.eqb_spec n 1) as [N1|]; [|discriminate]. subst n. assert (IA : (let! x := indexed_address en asz h s i st in Ok (Some (VUnsigned x))) = r).
    { unfold indexed_address. destruct (s_addr s) as [table|] eqn:ST; [|injection VO as <-; reflexivity]. destruct (entry_of _ _ _ _) as [o|] eqn:EO; [|discriminate]. rewrite Ua in EO. rewrite (entry_read en _ _ _ _ (Ba _ eq_refl) Hasz EO). injection VO as <-. reflexivity. }
    rewrite <- IA. assert (f = 41) as -> by (cbn [In] in H; repeat (destruct H as [H|H]; [injection H; congruence|]); destruct H). cbn [ProcessAttribute]. rewrite (fixed1 en _ _ _ H0). cbn [obind]. destruct (indexed_address en asz h s i st); cbn [obind result]; try reflexivity. rewrite (fixed_adv en _ _ i rest H0), deliver_give. reflexivity.
  - cbn [value_of] in VO. destruct (Z.eqb_spec (zlen bs) 1) as [N1|]; [|discriminate]. assert (IA : (let! x := indexed_address en asz h s i st in Ok (Some (VUnsigned x))) = r).
    { unfold indexed_address. destruct (s_addr s) as [table|] eqn:ST; [|injection VO as <-; reflexivity]. destruct (entry_of _ _ _ _) as [o|] eqn:EO; [|discriminate]. rewrite Ua in EO. rewrite (entry_read en _ _ _ _ (Ba _ eq_refl) Hasz EO). injection VO as <-. reflexivity. }
    rewrite <- IA. in_cases H; cbn [ProcessAttribute Z.eqb Pos.eqb]; rewrite (read_uleb _ _ _ H0); cbn [obind]; (destruct (indexed_address en asz h s i st); cbn [obind result]; try reflexivity); rewrite <- N1, advance_app, deliver_give; reflexivity.
  - cbn [value_of] in VO. rewrite Uv in VO. cbn [ProcessAttribute app]. destruct (version =? 5); [|injection VO as <-; reflexivity]. destruct ((0 <=? a_const a) && (a_const a <? 2 ^ 32)) eqn:B; [|discriminate]. injection VO as <-. rewrite CO by (auto; lia). reflexivity.
  - injection VO as <-. cbn [ProcessAttribute result]. rewrite <- H, advance_app. reflexivity.
  - injection VO as <-. in_cases H; reflexivity.
  - injection VO as <-. reflexivity.
  - cbn [ProcessAttribute]. pose proof (uleb_nonempty _ _ H) as P1. pose proof (uleb_nonneg _ _ H). rewrite app_length in LF. unfold zlen in P1. rewrite <- app_assoc, (next_uleb_app _ _ _ H). cbn [obind]. rewrite u32_small by lia. apply IHenc_value; [lia|exact VO|]. intros E. exfalso. eapply not_const; eauto.
Qed.

(** *** Entries *)
Notation P := (S * option (list Z))%type (only parsing).
Lemma skip_die l bs items : enc_items en version asz osz l bs items -> forall sps rest, Forall2 spec_of l sps ->
  SkipDIE en version asz osz (bs ++ rest) sps = if existsb (fun x => fst x =? 31) items then Abort else Ok rest.
Proof.
  induction 1 as [|a l bs bs' real it its EV _ IH]; intros sps rest F; (destruct sps as [|sp sps]; [first [reflexivity|inversion F]|]); [inversion F|]. apply f2_cons in F. destruct F as ((N & FO & _) & F').
  cbn [SkipDIE existsb fst]. rewrite <- app_assoc, FO, (skip_ok _ _ _ _ EV) by (rewrite app_length; lia). destruct (real =? 31); [reflexivity|]. cbn [obind orb]. apply IH, F'.
Qed.
Lemma process_die l bs items : enc_items en version asz osz l bs items -> forall sps rest offset st r, Forall2 spec_of l sps -> visit_items en s h u offset l items st = Some r ->
  ProcessDIE en version asz osz h s offset (bs ++ rest) sps st = let! st := r in Ok (st, rest).
Proof.
  induction 1 as [|a l bs bs' real it its EV _ IH]; intros sps rest offset st r F V; (destruct sps as [|sp sps]; [first [injection V as <-; reflexivity|inversion F]|]); [inversion F|]. apply f2_cons in F. destruct F as ((N & FO & CO) & F').
  cbn [visit_items] in V. cbn [ProcessDIE]. rewrite <- app_assoc, FO, N. destruct (value_of en s h u a it (fst st)) as [v|] eqn:VO; [|discriminate].
  rewrite (process_ok _ _ _ _ EV _ (bs' ++ rest) offset a _ st v) by (first [rewrite app_length; lia|exact VO|intros -> B; assert (a_form a = 33) as E by (destruct (Z.eq_dec (a_form a) 33) as [E|E]; [exact E|exfalso; eapply not_const; eauto]); rewrite E, Z.eqb_refl; apply CO; auto]).
  unfold result. destruct v as [[v|]| |]; cbn [andthen obind] in *; try (injection V as <-; reflexivity).
  - destruct (give h offset a real v st) as [st'| |]; cbn [andthen obind] in *; try (injection V as <-; reflexivity). apply IH; auto.
  - apply IH; auto.
Qed.
Context (decls : list decl) (abbrevs : list abbrev) (a0 : abbrev) (abs : list abbrev).
Context (Habs : abbrevs = a0 :: abs) (Fabs : Forall2 abbrev_of decls abs) (finish : Z).
Notation Loop := (ProcessDIEs en version asz osz h s).
Lemma abbrev_at num d : 0 < num -> nth_error decls (Z.to_nat (num - 1)) = Some d -> num < zlen abbrevs /\ abbrev_of d (nth (Z.to_nat num) abbrevs {| ab_number := 0; ab_tag := 0; ab_children := false; ab_specs := [] |}).
Proof.
  intros N E. replace (Z.to_nat num) with (Datatypes.S (Z.to_nat (num - 1))) by lia. subst abbrevs. cbn [nth]. set (k := Z.to_nat (num - 1)) in *. assert (KN : num = Z.of_nat k + 1) by lia. clearbody k.
  clear - E Fabs KN. revert decls abs E Fabs KN. revert num. induction k as [|k IH]; intros num ds ab E F KN; destruct F as [|d' a' ds' ab' R F']; try discriminate.
  - injection E as ->. rewrite !zlen_cons. pose proof (zlen_nonneg ab'). split; [lia|exact R].
  - destruct (IH (num - 1) ds' ab' E F' ltac:(lia)) as (A & B). cbn [nth]. rewrite !zlen_cons in *. split; [lia|exact B].
Qed.
Lemma map_specs l sps : Forall2 spec_of l sps -> map (fun x => (sp_name x, sp_form x)) sps = map (fun a => (a_name a, a_form a)) l.
Proof. induction 1 as [|a sp l sps (N & F & _) _ IH]; [reflexivity|]. cbn [map]. rewrite N, F, IH. reflexivity. Qed.
Lemma all_eq l st : (fix all l st := match l with [] => Some (Ok st) | t :: l => andthen (visit en s h u t st) (fun st => all l st) end) l st = visit_all en s h u l st.
Proof. revert st. induction l as [|t l IH]; intros st; [reflexivity|]. cbn [visit_all]. destruct (visit en s h u t st) as [[]|]; cbn [andthen]; auto. Qed.
(** reading the number and the attributes of an entry *)
Lemma enter num d items b1 b2 : uleb b1 num -> 0 < num -> nth_error decls (Z.to_nat (num - 1)) = Some d -> enc_items en version asz osz (d_attrs d) b2 items ->
  forall fuel rest stack st offset, offset = zlen (s_info s) - zlen ((b1 ++ b2) ++ rest) -> offset < finish ->
  forall r, andthen (Some (h_start h offset (d_tag d) (map (fun a => (a_name a, a_form a)) (d_attrs d)) (fst st))) (fun '(wanted, hs) =>
      if (wanted : bool) then visit_items en s h u offset (d_attrs d) items (hs, snd st) else skip_items items (hs, snd st)) = Some r ->
  Loop (Datatypes.S fuel) abbrevs finish ((b1 ++ b2) ++ rest) stack st =
  let! st := r in if d_children d then Loop fuel abbrevs finish rest (offset :: stack) st else let! hs := h_end h offset (fst st) in Loop fuel abbrevs finish rest stack (hs, snd st).
Proof.
  intros U N E EI fuel rest stack st offset OE OF r V. cbn [ProcessDIEs]. rewrite <- OE. assert (finish <=? offset = false) as -> by lia. rewrite <- app_assoc, (next_uleb_app _ _ _ U). cbn [obind].
  assert (num =? 0 = false) as -> by lia. destruct (abbrev_at num d N E) as (LT & T & C & F). assert (zlen abbrevs <=? num = false) as -> by lia. rewrite T, C, (map_specs _ _ F).
  destruct (h_start h offset (d_tag d) _ (fst st)) as [[wanted hs]| |]; cbn [andthen obind] in *; try (injection V as <-; reflexivity). destruct wanted.
  - rewrite (process_die _ _ _ EI _ _ _ _ _ F V). destruct r; reflexivity.
  - rewrite (skip_die _ _ _ EI _ _ F). unfold skip_items in V. destruct (existsb _ items); injection V as <-; reflexivity.
Qed.
Lemma andthen_assoc {A B C} (x : option (outcome A)) (f : A -> option (outcome B)) (g : B -> option (outcome C)) :
  andthen (andthen x f) g = andthen x (fun a => andthen (f a) g).
Proof. destruct x as [[]|]; reflexivity. Qed.
Lemma visit_split offset d items kids st : visit en s h u (Tree offset d items kids) st =
  andthen (andthen (Some (h_start h offset (d_tag d) (map (fun a => (a_name a, a_form a)) (d_attrs d)) (fst st))) (fun '(wanted, hs) =>
      if (wanted : bool) then visit_items en s h u offset (d_attrs d) items (hs, snd st) else skip_items items (hs, snd st))) (fun st =>
  andthen (visit_all en s h u kids st) (fun st => Some (let! hs := h_end h offset (fst st) in Ok (hs, snd st)))).
Proof.
  rewrite andthen_assoc. cbn [visit]. destruct (h_start h offset _ _ _) as [[wanted hs]| |]; cbn [andthen]; try reflexivity.
Qed.
Scheme tree_ind2 := Induction for enc_tree Sort Prop with trees_ind2 := Induction for enc_trees Sort Prop.
Combined Scheme trees_mut from tree_ind2, trees_ind2.
(** the loop over the bytes of an entry (of a list of entries) is the visit of it *)
Definition loops (pos : Z) (b : list Z) (v : P -> option (outcome P)) : Prop :=
  exists k, (k <= length b)%nat /\ forall fuel rest stack st r, pos = zlen (s_info s) - zlen (b ++ rest) -> pos + zlen b <= finish -> v st = Some r ->
    Loop (k + fuel) abbrevs finish (b ++ rest) stack st = let! st := r in Loop fuel abbrevs finish rest stack st.
Lemma loop_null fuel b rest stack st : uleb b 0 -> zlen (s_info s) - zlen (b ++ rest) < finish ->
  Loop (Datatypes.S fuel) abbrevs finish (b ++ rest) stack st = match stack with [] => Loop fuel abbrevs finish rest [] st | o :: stack => let! hs := h_end h o (fst st) in Loop fuel abbrevs finish rest stack (hs, snd st) end.
Proof. intros U L. cbn [ProcessDIEs]. assert (finish <=? _ = false) as -> by lia. rewrite (next_uleb_app _ _ _ U). reflexivity. Qed.
Lemma loop_trees : (forall pos t b, enc_tree en version asz osz decls pos t b -> loops pos b (visit en s h u t)) /\
  (forall pos l b, enc_trees en version asz osz decls pos l b -> loops pos b (visit_all en s h u l)).
Proof.
  apply trees_mut.
  - intros pos num d items b1 b2 U N E C EI. exists 1%nat. pose proof (uleb_nonempty _ _ U) as P1. split; [rewrite app_length; unfold zlen in P1; lia|]. intros fuel rest stack st r PE PF V. rewrite visit_split in V.
    destruct (andthen (Some _) _) as [r1|] eqn:V1 in V; [|discriminate]. rewrite !zlen_app in *. pose proof (zlen_nonneg b2). cbn [Nat.add].
    rewrite (enter num d items b1 b2 U N E EI fuel rest stack st pos) with (r := r1); [|rewrite !zlen_app; lia|lia|exact V1]. rewrite C. destruct r1 as [st1| |]; cbn [andthen obind visit_all] in *; try (injection V as <-; reflexivity).
    injection V as <-. destruct (h_end h pos (fst st1)); reflexivity.
  - intros pos num d items kids b1 b2 b3 b4 U N E C EI EK (k & LK & IH) U4. exists (1 + k + 1)%nat. pose proof (uleb_nonempty _ _ U) as P1. pose proof (uleb_nonempty _ _ U4) as P4. split; [rewrite !app_length; unfold zlen in P1, P4; lia|]. intros fuel rest stack st r PE PF V. rewrite visit_split in V.
    destruct (andthen (Some _) _) as [r1|] eqn:V1 in V; [|discriminate]. rewrite !zlen_app in *. pose proof (zlen_nonneg b2). pose proof (zlen_nonneg b3). replace (1 + k + 1 + fuel)%nat with (Datatypes.S (k + (Datatypes.S fuel))) by lia.
    replace ((b1 ++ b2 ++ b3 ++ b4) ++ rest) with ((b1 ++ b2) ++ (b3 ++ b4 ++ rest)) by (rewrite <- !app_assoc; reflexivity).
    rewrite (enter num d items b1 b2 U N E EI _ _ stack st pos) with (r := r1); [|rewrite !zlen_app; lia|lia|exact V1]. rewrite C. destruct r1 as [st1| |]; cbn [andthen obind] in *; try (injection V as <-; reflexivity).
    destruct (visit_all en s h u kids st1) as [r2|] eqn:V2; [|discriminate]. rewrite (IH _ _ (pos :: stack) st1 r2) by (first [exact V2|rewrite ?zlen_app; lia]). destruct r2 as [st2| |]; cbn [andthen obind] in *; try (injection V as <-; reflexivity).
    rewrite loop_null by (first [exact U4|rewrite ?zlen_app; lia]). injection V as <-. destruct (h_end h pos (fst st2)); reflexivity.
  - intros pos. exists O. split; [lia|]. intros fuel rest stack st r _ _ V. injection V as <-. reflexivity.
  - intros pos t l b bs ET (k1 & L1 & IH1) EL (k2 & L2 & IH2). exists (k1 + k2)%nat. split; [rewrite app_length; lia|]. intros fuel rest stack st r PE PF V. cbn [visit_all] in V. rewrite !zlen_app in *. pose proof (zlen_nonneg bs). pose proof (zlen_nonneg b).
    destruct (visit en s h u t st) as [r1|] eqn:V1; [|discriminate]. rewrite <- app_assoc, <- Nat.add_assoc. rewrite (IH1 _ _ stack st r1) by (first [exact V1|rewrite ?zlen_app; lia]). destruct r1 as [st1| |]; cbn [andthen obind] in *; try (injection V as <-; reflexivity).
    apply IH2; [rewrite ?zlen_app; lia|lia|exact V].
Qed.
Lemma loop_tops pos l b : enc_tops en version asz osz decls pos l b -> exists k, (k <= length b)%nat /\ forall fuel rest st r, pos = zlen (s_info s) - zlen (b ++ rest) -> pos + zlen b <= finish -> visit_all en s h u l st = Some r ->
    Loop (k + fuel) abbrevs finish (b ++ rest) [] st = let! st := r in Loop fuel abbrevs finish rest [] st.
Proof.
  induction 1 as [pos|pos l b bs U _ (k & LK & IH)|pos t l b bs ET _ (k2 & L2 & IH2)].
  - exists O. split; [lia|]. intros fuel rest st r _ _ V. injection V as <-. reflexivity.
  - exists (Datatypes.S k). pose proof (uleb_nonempty _ _ U) as P1. split; [rewrite app_length; unfold zlen in P1; lia|]. intros fuel rest st r PE PF V. rewrite !zlen_app in *. pose proof (zlen_nonneg bs). cbn [Nat.add]. rewrite <- app_assoc, loop_null by (first [exact U|rewrite ?zlen_app; lia]). apply IH; [rewrite ?zlen_app; lia|lia|exact V].
  - destruct (proj1 loop_trees _ _ _ ET) as (k1 & L1 & IH1). exists (k1 + k2)%nat. split; [rewrite app_length; lia|]. intros fuel rest st r PE PF V. cbn [visit_all] in V. rewrite !zlen_app in *. pose proof (zlen_nonneg bs). pose proof (zlen_nonneg b).
    destruct (visit en s h u t st) as [r1|] eqn:V1; [|discriminate]. rewrite <- app_assoc, <- Nat.add_assoc. rewrite (IH1 _ _ [] st r1) by (first [exact V1|rewrite ?zlen_app; lia]). destruct r1 as [st1| |]; cbn [andthen obind] in *; try (injection V as <-; reflexivity).
    apply IH2; [rewrite ?zlen_app; lia|lia|exact V].
Qed.
End Attr.

(** *** Units *)
Lemma at_pos_pre n (pre rest : list Z) : n = zlen pre -> at_pos n (pre ++ rest) = rest.
Proof. intros ->. apply at_pos_app0. Qed.
Section Header.
Context (en : endian) (s : sections).
Lemma header_ok version asz osz ao len il hb bs rest : initial_length en il osz len -> len = zlen (hb ++ bs) -> asz = 4 \/ asz = 8 -> enc_header en version asz osz ao hb -> bs <> [] ->
  exists ut, ReadHeader en ((il ++ hb ++ bs) ++ rest) = Ok (Some {| hd_length := len; hd_version := version; hd_unit_type := ut; hd_address_size := asz; hd_offset_size := osz; hd_abbrev_offset := ao; hd_after := zlen il + zlen hb |}).
Proof.
  intros IL LE AS EH NE. assert (PB : 1 <= zlen bs) by (destruct bs; [congruence|rewrite zlen_cons; pose proof (zlen_nonneg bs); lia]). pose proof (zlen_nonneg rest) as PR.
  destruct (read_initial_length en il osz len ((hb ++ bs) ++ rest) IL) as (RI & LI & OS). rewrite app_assoc in RI. rewrite zlen_app in LE.
  unfold ReadHeader. set (buf := (il ++ hb ++ bs) ++ rest) in *. assert (BL : zlen buf = zlen il + (zlen hb + zlen bs) + zlen rest) by (subst buf; rewrite !zlen_app; lia). rewrite RI. cbn [obind]. pose proof (zlen_nonneg hb) as PH.
  assert (O4 : 4 <= osz <= 8) by lia. assert (I4 : 4 <= zlen il) by (rewrite LI; destruct (osz =? 8); lia). rewrite BL. clear RI.
  destruct EH as [v a VB FV FA|v a VB FV FA|v a ut id VB FV FA UT LD].
  - assert (LV : zlen v = 2) by apply FV. assert (LA : zlen a = osz) by apply FA. rewrite !zlen_app, LV, LA in *. change (zlen [asz]) with 1 in *.
    exists 0. repeat match goal with |- context [?x <=? ?y] => first [assert (x <=? y = false) as -> by lia] end. assert (len =? 0 = false) as -> by lia. cbn [orb].
    assert (E1 : at_pos (zlen il) buf = v ++ (a ++ [asz] ++ bs ++ rest)) by (unfold buf; rewrite <- !app_assoc; apply at_pos_pre; reflexivity). rewrite E1, (fixed2 en _ _ _ FV). cbn [obind].
    assert ((version <? 2) || (5 <? version) = false) as -> by lia. assert (version =? 5 = false) as -> by lia.
    assert (E2 : at_pos (zlen il + 2) buf = a ++ ([asz] ++ bs ++ rest)) by (unfold buf; rewrite <- !app_assoc; rewrite (app_assoc il v); apply at_pos_pre; rewrite zlen_app; lia). rewrite E2, (fixed_sized en _ _ _ _ OS FA). cbn [obind].
    repeat match goal with |- context [?x <=? ?y] => first [assert (x <=? y = false) as -> by lia] end.
    assert (E3 : at_pos (zlen il + 2 + osz) buf = asz :: (bs ++ rest)) by (unfold buf; rewrite <- !app_assoc; rewrite (app_assoc v a), (app_assoc il (v ++ a)); apply (at_pos_pre _ (il ++ v ++ a) (asz :: (bs ++ rest))); rewrite !zlen_app; lia). rewrite E3.
    assert (RA : ReadOneByte (asz :: (bs ++ rest)) = Ok asz) by (destruct AS as [-> | ->]; reflexivity). rewrite RA. cbn [obind]. assert (negb ((asz =? 4) || (asz =? 8)) = false) as -> by lia.
    match goal with |- context [?x <? ?y] => assert (x <? y = false) as -> by (rewrite LI in *; destruct (osz =? 8); lia) end. do 3 f_equal. lia.
  - assert (LV : zlen v = 2) by apply FV. assert (LA : zlen a = osz) by apply FA. rewrite !zlen_app, LV, LA in *. change (zlen [1; asz]) with 2 in *.
    exists 1. repeat match goal with |- context [?x <=? ?y] => first [assert (x <=? y = false) as -> by lia] end. assert (len =? 0 = false) as -> by lia. cbn [orb].
    assert (E1 : at_pos (zlen il) buf = v ++ ([1; asz] ++ a ++ bs ++ rest)) by (unfold buf; rewrite <- !app_assoc; apply at_pos_pre; reflexivity). rewrite E1, (fixed2 en _ _ _ FV). cbn [obind].
    assert ((version <? 2) || (5 <? version) = false) as -> by lia. assert (version =? 5 = true) as -> by lia.
    assert (E2 : at_pos (zlen il + 2) buf = 1 :: (asz :: a ++ bs ++ rest)) by (unfold buf; rewrite <- !app_assoc; rewrite (app_assoc il v); apply at_pos_pre; rewrite zlen_app; lia). rewrite E2. change (ReadOneByte (1 :: asz :: a ++ bs ++ rest)) with (Ok 1). cbn [obind Z.eqb Pos.eqb orb negb].
    assert (E3 : at_pos (zlen il + 2 + 1) buf = asz :: (a ++ bs ++ rest)) by (unfold buf; rewrite <- !app_assoc; cbn [app]; change (1 :: asz :: a ++ bs ++ rest) with ([1] ++ (asz :: a ++ bs ++ rest)); rewrite (app_assoc v), (app_assoc il); apply at_pos_pre; rewrite !zlen_app, LV; rewrite zlen_cons, zlen_nil; lia). rewrite E3.
    assert (RA : ReadOneByte (asz :: (a ++ bs ++ rest)) = Ok asz) by (destruct AS as [-> | ->]; reflexivity). rewrite RA. cbn [obind]. assert (negb ((asz =? 4) || (asz =? 8)) = false) as -> by lia.
    repeat match goal with |- context [?x <=? ?y] => first [assert (x <=? y = false) as -> by lia] end.
    assert (E4 : at_pos (zlen il + 2 + 1 + 1) buf = a ++ (bs ++ rest)) by (unfold buf; rewrite <- !app_assoc; cbn [app]; change (1 :: asz :: a ++ bs ++ rest) with ([1; asz] ++ (a ++ bs ++ rest)); rewrite (app_assoc v), (app_assoc il); apply at_pos_pre; rewrite !zlen_app, LV; change (zlen [1; asz]) with 2; lia). rewrite E4, (fixed_sized en _ _ _ _ OS FA). cbn [obind].
    match goal with |- context [?x <? ?y] => assert (x <? y = false) as -> by (rewrite LI in *; destruct (osz =? 8); lia) end. do 3 f_equal. lia.
  - assert (LV : zlen v = 2) by apply FV. assert (LA : zlen a = osz) by apply FA. rewrite !zlen_app, LV, LA in *. change (zlen [ut; asz]) with 2 in *.
    exists ut. repeat match goal with |- context [?x <=? ?y] => first [assert (x <=? y = false) as -> by lia] end. assert (len =? 0 = false) as -> by lia. cbn [orb].
    assert (E1 : at_pos (zlen il) buf = v ++ ([ut; asz] ++ a ++ id ++ bs ++ rest)) by (unfold buf; rewrite <- !app_assoc; apply at_pos_pre; reflexivity). rewrite E1, (fixed2 en _ _ _ FV). cbn [obind].
    assert ((version <? 2) || (5 <? version) = false) as -> by lia. assert (version =? 5 = true) as -> by lia.
    assert (E2 : at_pos (zlen il + 2) buf = ut :: (asz :: a ++ id ++ bs ++ rest)) by (unfold buf; rewrite <- !app_assoc; rewrite (app_assoc il v); apply at_pos_pre; rewrite zlen_app; lia). rewrite E2.
    assert (RU : ReadOneByte (ut :: (asz :: a ++ id ++ bs ++ rest)) = Ok ut) by (destruct UT as [-> | ->]; reflexivity). rewrite RU. cbn [obind]. assert (negb ((ut =? 1) || (ut =? 4) || (ut =? 5)) = false) as -> by lia.
    assert (E3 : at_pos (zlen il + 2 + 1) buf = asz :: (a ++ id ++ bs ++ rest)) by (unfold buf; rewrite <- !app_assoc; cbn [app]; change (ut :: asz :: a ++ id ++ bs ++ rest) with ([ut] ++ (asz :: a ++ id ++ bs ++ rest)); rewrite (app_assoc v), (app_assoc il); apply at_pos_pre; rewrite !zlen_app, LV; rewrite zlen_cons, zlen_nil; lia). rewrite E3.
    assert (RA : ReadOneByte (asz :: (a ++ id ++ bs ++ rest)) = Ok asz) by (destruct AS as [-> | ->]; reflexivity). rewrite RA. cbn [obind]. assert (negb ((asz =? 4) || (asz =? 8)) = false) as -> by lia.
    repeat match goal with |- context [?x <=? ?y] => first [assert (x <=? y = false) as -> by lia] end.
    assert (E4 : at_pos (zlen il + 2 + 1 + 1) buf = a ++ (id ++ bs ++ rest)) by (unfold buf; rewrite <- !app_assoc; cbn [app]; change (ut :: asz :: a ++ id ++ bs ++ rest) with ([ut; asz] ++ (a ++ id ++ bs ++ rest)); rewrite (app_assoc v), (app_assoc il); apply at_pos_pre; rewrite !zlen_app, LV; change (zlen [ut; asz]) with 2; lia). rewrite E4, (fixed_sized en _ _ _ _ OS FA). cbn [obind].
    assert (E5 : at_pos (zlen il + 2 + 1 + 1 + osz) buf = id ++ (bs ++ rest)) by (unfold buf; rewrite <- !app_assoc; cbn [app]; change (ut :: asz :: a ++ id ++ bs ++ rest) with ([ut; asz] ++ (a ++ id ++ bs ++ rest)); rewrite (app_assoc [ut; asz]), (app_assoc v), (app_assoc il); apply at_pos_pre; rewrite !zlen_app, LV, LA; change (zlen [ut; asz]) with 2; lia). rewrite E5.
    assert ((ut =? 4) || (ut =? 5) = true) as -> by lia.
    assert (R8 : exists x, ReadEightBytes en (id ++ bs ++ rest) = Ok x). { do 8 (destruct id as [|? id]; [discriminate LD|]). eexists. reflexivity. }
    destruct R8 as (x & ->). cbn [obind]. match goal with |- context [?x <? ?y] => assert (x <? y = false) as -> by (rewrite LI in *; destruct (osz =? 8); lia) end. do 3 f_equal. lia.
Qed.
Lemma offsets_header_ok b osz tail : table_header en b osz tail -> ReadDebugOffsetTableHeader en 5 b = Ok (Some (if osz =? 8 then 16 else 8, osz)).
Proof.
  intros (il & len & ver & x & y & rest & -> & IL & FV & _). unfold ReadDebugOffsetTableHeader. destruct (read_initial_length en il osz len (ver ++ [x; y] ++ rest) IL) as (RI & LI & OS). assert (LV : zlen ver = 2) by apply FV. pose proof (zlen_nonneg rest).
  rewrite !zlen_app, LV. change (zlen [x; y]) with 2. match goal with |- context [?a <=? ?b] => assert (a <=? b = false) as -> by (rewrite LI; destruct (osz =? 8); lia) end. rewrite RI. cbn [obind].
  rewrite at_pos_app0, (fixed2 en _ _ _ FV). cbn [obind Z.eqb Pos.eqb]. rewrite LI. destruct (osz =? 8); reflexivity.
Qed.
Lemma addr_header_ok b asz osz : asz = 4 \/ asz = 8 -> table_header en b osz (fun x y => x = asz /\ is_byte y) -> ReadDebugAddressTableHeader en 5 asz b = Ok (Some (if osz =? 8 then 16 else 8, osz)).
Proof.
  intros AS (il & len & ver & x & y & rest & -> & IL & FV & -> & BY). unfold ReadDebugAddressTableHeader. destruct (read_initial_length en il osz len (ver ++ [asz; y] ++ rest) IL) as (RI & LI & OS). assert (LV : zlen ver = 2) by apply FV. pose proof (zlen_nonneg rest).
  rewrite !zlen_app, LV. change (zlen [asz; y]) with 2. match goal with |- context [?a <=? ?b] => assert (a <=? b = false) as -> by (rewrite LI; destruct (osz =? 8); lia) end. rewrite RI. cbn [obind].
  rewrite at_pos_app0, (fixed2 en _ _ _ FV). cbn [obind Z.eqb Pos.eqb app].
  assert (E2 : at_pos (zlen il + 2) (il ++ ver ++ asz :: y :: rest) = asz :: y :: rest) by (rewrite app_assoc; apply at_pos_pre; rewrite zlen_app; lia). rewrite E2.
  assert (RA : ReadOneByte (asz :: y :: rest) = Ok asz) by (destruct AS as [-> | ->]; reflexivity). rewrite RA. cbn [obind]. rewrite Z.eqb_refl.
  assert (E3 : at_pos (zlen il + 3) (il ++ ver ++ asz :: y :: rest) = y :: rest) by (change (asz :: y :: rest) with ([asz] ++ y :: rest); rewrite (app_assoc ver), app_assoc; apply at_pos_pre; rewrite !zlen_app; change (zlen [asz]) with 1; lia). rewrite E3. cbn [ReadOneByte obind]. rewrite LI. destruct (osz =? 8); reflexivity.
Qed.
End Header.
Section Whole.
Context (en : endian) (s : sections) {S : Type} (h : handler S).
Context (Bo : forall b, s_str_offsets s = Some b -> Forall is_byte b) (Ba : forall b, s_addr s = Some b -> Forall is_byte b) (Hlen : zlen (s_info s) < 2 ^ 64).
Lemma start_ok u b pre rest hs r : enc_unit en s (zlen pre) u b -> s_info s = pre ++ b ++ rest -> visit_unit en s h u hs = Some r ->
  Start en h s (zlen pre) hs = let! hs := r in Ok (zlen b, false, hs).
Proof.
  intros EU IN V. remember (zlen pre) as offset eqn:OE. destruct EU as [offset version asz osz len il hb ao apre tab apost decls trees bs IL LE AS EH TO AB AO ED EO NE].
  destruct (header_ok en version asz osz ao len il hb bs rest IL LE AS EH NE) as (ut & RH). destruct (read_initial_length en il osz len [] IL) as (_ & LI & OS).
  unfold Start. assert (AT : at_pos offset (s_info s) = (il ++ hb ++ bs) ++ rest) by (rewrite IN; apply at_pos_pre; exact OE). rewrite AT, RH. cbn [obind hd_length hd_version hd_unit_type hd_address_size hd_offset_size hd_abbrev_offset hd_after]. unfold visit_unit in V. cbn [u_offset u_asz u_osz u_length u_version u_trees] in V.
  assert (OL : u64 (len + (if osz =? 8 then 12 else 4)) = zlen (il ++ hb ++ bs)).
  { rewrite IN, !zlen_app in Hlen. rewrite zlen_app in *. pose proof (zlen_nonneg pre). pose proof (zlen_nonneg rest). pose proof (zlen_nonneg hb). pose proof (zlen_nonneg bs). rewrite zlen_app in *. unfold u64, w64. rewrite Z.mod_small; destruct (osz =? 8); lia. }
  rewrite OL. destruct (h_unit h offset asz osz len version hs) as [[wanted hs1]| |]; cbn [andthen obind] in *; try (injection V as <-; reflexivity). destruct wanted; cbn [negb]; [|injection V as <-; reflexivity].
  unfold ReadAbbrevs. rewrite AB. rewrite at_pos_pre by (symmetry; exact AO). destruct (read_abbrevs_ok 1 decls tab ED (Datatypes.S (length (apre ++ tab ++ apost))) apost [{| ab_number := 0; ab_tag := 0; ab_children := false; ab_specs := [] |}] ltac:(rewrite !app_length; lia) eq_refl) as (abs & RA & FA). rewrite RA. cbn [obind].
  set (base := if osz =? 8 then 16 else 8) in *. assert (BP : base <? 0 = false) by (subst base; destruct (osz =? 8); reflexivity).
  set (hs2 := match s_str_offsets s with Some _ => if version =? 5 then h_set_str_base h base hs1 else hs1 | None => hs1 end) in *.
  set (hs3 := match s_addr s with Some _ => if version =? 5 then h_set_addr_base h base hs2 else hs2 | None => hs2 end) in *.
  assert (T1 : exists b1, (match s_str_offsets s with Some b => if version =? 5 then ReadDebugOffsetTableHeader en version b else Ok (Some (-1, osz)) | None => Ok (Some (-1, osz)) end) = Ok (Some (b1, osz)) /\ (if b1 <? 0 then hs1 else h_set_str_base h b1 hs1) = hs2).
  { subst hs2. destruct (s_str_offsets s) as [b|] eqn:SO; [|exists (-1); auto]. destruct (Z.eqb_spec version 5) as [->|]; [|exists (-1); auto]. exists base. rewrite (offsets_header_ok en b osz (fun _ _ => True) (proj1 (TO eq_refl) b SO)). rewrite BP. auto. }
  destruct T1 as (b1 & -> & H2). cbn [obind]. rewrite H2.
  assert (T2 : exists b2, (match s_addr s with Some b => if version =? 5 then ReadDebugAddressTableHeader en version asz b else Ok (Some (-1, osz)) | None => Ok (Some (-1, osz)) end) = Ok (Some (b2, osz)) /\ (if b2 <? 0 then hs2 else h_set_addr_base h b2 hs2) = hs3).
  { subst hs3. destruct (s_addr s) as [b|] eqn:SA; [|exists (-1); auto]. destruct (Z.eqb_spec version 5) as [->|]; [|exists (-1); auto]. exists base. rewrite (addr_header_ok en b asz osz AS (proj2 (TO eq_refl) b SA)). rewrite BP. auto. }
  destruct T2 as (b2 & -> & H3). cbn [obind]. rewrite H3.
  assert (AP : at_pos (zlen il + zlen hb) ((il ++ hb ++ bs) ++ rest) = bs ++ rest) by (rewrite <- !app_assoc, (app_assoc il hb); apply at_pos_pre; rewrite zlen_app; lia). rewrite AP.
  set (u := {| u_offset := offset; u_length := len; u_version := version; u_asz := asz; u_osz := osz; u_trees := trees |}) in *. set (finish := offset + (if osz =? 8 then 12 else 4) + len).
  destruct (loop_tops en version asz osz AS OS h s u eq_refl eq_refl eq_refl Bo Ba decls _ {| ab_number := 0; ab_tag := 0; ab_children := false; ab_specs := [] |} abs eq_refl FA finish (offset + zlen il + zlen hb) trees bs EO) as (k & LK & LO).
  destruct (visit_all en s h u trees (hs3, None)) as [r1|] eqn:V1; [|discriminate].
  assert (ZI : zlen (s_info s) = zlen pre + (zlen il + (zlen hb + zlen bs)) + zlen rest) by (rewrite IN, !zlen_app; lia). rewrite zlen_app in LE.
  assert (FU : exists fuel, Datatypes.S (length (bs ++ rest)) = (k + fuel)%nat) by (exists (Datatypes.S (length (bs ++ rest)) - k)%nat; rewrite app_length in *; lia). destruct FU as (fuel & ->).
  assert (F1 : offset + zlen il + zlen hb = zlen (s_info s) - zlen (bs ++ rest)) by (rewrite zlen_app, ZI, OE; lia). assert (F2 : offset + zlen il + zlen hb + zlen bs <= finish) by (subst finish; rewrite <- LI; lia).
  cbn [app]. rewrite (LO fuel rest (hs3, None) r1 F1 F2 V1). destruct r1 as [[hs4 dwo]| |]; cbn [andthen obind] in *; try (injection V as <-; reflexivity).
  assert (LE2 : ProcessDIEs en version asz osz h s fuel ({| ab_number := 0; ab_tag := 0; ab_children := false; ab_specs := [] |} :: abs) finish rest [] (hs4, dwo) = Ok (hs4, dwo)).
  { destruct fuel; cbn [ProcessDIEs]; (match goal with |- context [?a <=? ?b] => assert (a <=? b = true) as -> by (subst finish; rewrite <- LI, ZI, OE; lia) end); reflexivity. }
  cbn [app]. rewrite LE2. cbn [obind]. injection V as <-. destruct dwo as [d|]; [|reflexivity]. destruct (h_split h d hs4); reflexivity.
Qed.
Lemma units_ok us bs : forall pre fuel hs r, enc_units en s (zlen pre) us bs -> s_info s = pre ++ bs -> visit_units en s h us hs = Some r -> (length bs <= fuel)%nat -> read_units en h s fuel (zlen pre) hs = r.
Proof.
  revert bs. induction us as [|u us IH]; intros bs pre fuel hs r EU IN V LF.
  - inversion EU; subst. injection V as <-. destruct fuel; cbn [read_units]; rewrite IN, app_nil_r, Z.leb_refl; reflexivity.
  - inversion EU as [|pos u' us' b bs' E1 E2]. subst pos u' us' bs. cbn [visit_units] in V. destruct (visit_unit en s h u hs) as [r1|] eqn:V1; [|discriminate].
    assert (PB : 1 <= zlen b). { destruct E1. rewrite !zlen_app. pose proof (zlen_nonneg hb). destruct bs as [|x bs]; [congruence|]. rewrite zlen_cons. pose proof (zlen_nonneg bs). pose proof (zlen_nonneg il). lia. }
    rewrite app_length in LF. destruct fuel as [|fuel]; [unfold zlen in PB; lia|]. cbn [read_units]. assert (zlen (s_info s) <=? zlen pre = false) as -> by (rewrite IN, !zlen_app; pose proof (zlen_nonneg bs'); lia).
    rewrite (start_ok u b pre bs' hs r1 E1 IN V1). destruct r1 as [hs1| |]; cbn [andthen obind] in *; try (injection V as <-; reflexivity). rewrite <- zlen_app. apply (IH bs'); [rewrite zlen_app; exact E2|rewrite <- app_assoc; exact IN|exact V|unfold zlen in PB; lia].
Qed.
End Whole.
