(** The reader decodes what the standard encodes. *)
From Verif Require Import Base ByteModel ByteSpec ByteProofs ByteProps DwLineModel DwLineSpec.

Lemma from_app a b : from (zlen a) (a ++ b) = b.
Proof. unfold from, zlen. rewrite Nat2Z.id. rewrite skipn_app, skipn_all, Nat.sub_diag. reflexivity. Qed.
Lemma from_app_n n a b : zlen a = n -> from n (a ++ b) = b.
Proof. intros <-. apply from_app. Qed.
Lemma from_1 x l : from 1 (x :: l) = l.
Proof. reflexivity. Qed.
Lemma from_0 l : from 0 l = l.
Proof. reflexivity. Qed.
Lemma from_from a b l : 0 <= a -> 0 <= b -> from b (from a l) = from (a + b) l.
Proof.
  intros A B. unfold from. rewrite Z2Nat.inj_add by assumption. generalize (Z.to_nat a) (Z.to_nat b). clear. intros m n. revert l. induction m as [|m IH]; intros l; [reflexivity|]. destruct l as [|x l]; [rewrite !skipn_nil; reflexivity|]. cbn [skipn Nat.add]. apply IH.
Qed.
Lemma one_byte b rest : is_byte b -> ReadOneByte (b :: rest) = Ok b.
Proof. intros H. cbn. rewrite schar_mod by exact H. reflexivity. Qed.
Lemma uleb_read v bs rest : uleb_of v bs -> ReadUnsignedLEB128 (bs ++ rest) = Ok (v, zlen bs).
Proof.
  intros (A & B & C & D). rewrite C23_unsigned_leb128 by assumption. rewrite C. pose proof (leb_bits_bound bs A). rewrite Z.mod_small by lia. reflexivity.
Qed.
Lemma sleb_read w v bs rest : sleb_of v bs -> ReadSignedLEB128 w (bs ++ rest) = Ok (v, zlen bs).
Proof.
  intros (A & B & C & D & E). destruct (C23_signed_leb128 bs rest A B ltac:(lia)) as (H1 & H2). rewrite C in *. destruct w; [exact H1|exact (H2 E)].
Qed.
Lemma uleb_nonneg v bs : uleb_of v bs -> 0 <= v.
Proof. intros (A & B & C & D). pose proof (leb_bits_bound bs A). lia. Qed.
Lemma uleb_len v bs : uleb_of v bs -> 1 <= zlen bs <= 10.
Proof. intros (A & B & _). destruct bs; [destruct A|]. rewrite zlen_cons in *. pose proof (zlen_nonneg bs). lia. Qed.
Lemma sized_read en n v bs rest : n = 4 \/ n = 8 -> fixed_of en n v bs -> ReadSized en n (bs ++ rest) = Ok v.
Proof.
  intros H (L & F & V). unfold ReadSized. destruct (C24_fixed_width bs rest F) as (_ & _ & _ & H4 & H8). unfold zlen in L.
  destruct H as [-> | ->]; cbn [Z.eqb Pos.eqb].
  - destruct H4 as (X & Y); [lia|]. destruct en; cbn [value_of] in V; congruence.
  - destruct H8 as (X & Y); [lia|]. destruct en; cbn [value_of] in V; congruence.
Qed.
Lemma two_read en v bs rest : fixed_of en 2 v bs -> ReadTwoBytes en (bs ++ rest) = Ok v.
Proof.
  intros (L & F & V). destruct (C24_fixed_width bs rest F) as (_ & H2 & _). unfold zlen in L. destruct H2 as (X & Y); [lia|]. destruct en; cbn [value_of] in V; congruence.
Qed.
Lemma fixed_bound en n v bs : fixed_of en n v bs -> 0 <= v < 256 ^ n.
Proof.
  intros (L & F & V). assert (G : forall l, Forall is_byte l -> 0 <= le_value l < 256 ^ zlen l) by apply le_value_bound. destruct en; cbn [value_of] in V; subst v n.
  - unfold be_value. replace (zlen bs) with (zlen (rev bs)) by (unfold zlen; rewrite rev_length; reflexivity). apply G. apply Forall_rev. exact F.
  - apply G. exact F.
Qed.
Lemma cstr_read s rest : is_name s -> cstr (s ++ 0 :: rest) = Ok s.
Proof.
  intros F. induction F as [|b s (HB & HN) F IH]; [reflexivity|]. cbn [app cstr]. destruct (Z.eqb_spec b 0); [contradiction|]. rewrite IH. reflexivity.
Qed.
Lemma skip_read operands : forall rest oplen, Forall (fun bs => exists v, uleb_of v bs) operands -> 0 <= oplen -> oplen + 10 * zlen operands < 2 ^ 63 ->
  skip_ulebs (length operands) (concat operands ++ rest) oplen = Ok (oplen + zlen (concat operands)).
Proof.
  induction operands as [|bs operands IH]; intros rest oplen F L B; cbn [length skip_ulebs concat]; [rewrite zlen_nil; f_equal; lia|]. inversion F as [|? ? (v & H) F']; subst. rewrite <- app_assoc, (uleb_read v bs _ H). cbn [obind]. rewrite from_app. pose proof (uleb_len v bs H). rewrite zlen_cons in B. pose proof (zlen_nonneg operands).
  assert (E : u64 (oplen + zlen bs) = oplen + zlen bs) by (unfold u64, w64; apply Z.mod_small; lia). rewrite E, IH by (try assumption; lia). rewrite zlen_app. f_equal. lia.
Qed.

(** *** One opcode *)
Section One.
Context (en : endian) (asz : Z) (wraps : bool) (ASZ : asz = 4 \/ asz = 8) (P : params) (GP : good_params P) (h : header).
Definition header_for : Prop :=
  min_insn_length h = p_min P /\ line_base h = p_line_base P /\ line_range h = p_line_range P /\ opcode_base h = p_opcode_base P /\ std_opcode_lengths h = 0 :: p_lengths P.
Context (HF : header_for).
Definition rel (s : lsm) (r : regs) : Prop :=
  address s = r_address r /\ u32 (line_num s) = r_line r /\ file_num s = r_file r /\ column_num s = r_column r /\ discriminator s = r_disc r /\
  0 <= r_address r < 2 ^ 64 /\ 0 <= r_line r < 2 ^ 32.
Definition row_regs (i : instr) (r : regs) : regs :=
  match i with Special op => advance (special_address P op) (special_line P op) r | _ => r end.
Definition adds_row (i : instr) : bool := match i with Special _ | Copy | EndSequence => true | _ => false end.
Definition is_end (i : instr) : bool := match i with EndSequence => true | _ => false end.
Definition calls_of (i : instr) : list event := match i with DefineFile n d m l => [EvFile n (-1) (u32 d) m l] | _ => [] end.

Lemma rel_advance s r da dl da' dl' f :
  rel s r -> u64 da' = u64 da -> u32 dl' = u32 dl ->
  (forall s, address (f s) = u64 (address s + da')) -> (forall s, line_num (f s) = u64 (line_num s + dl') \/ (line_num (f s) = line_num s /\ u32 dl' = 0)) ->
  (forall s, file_num (f s) = file_num s /\ column_num (f s) = column_num s /\ discriminator (f s) = discriminator s) ->
  rel (f s) (advance da dl r).
Proof.
  intros (A & B & C & D & E & F & G) HA HL FA FL FO. destruct (FO s) as (F1 & F2 & F3). unfold rel, advance. cbn [r_address r_file r_line r_column r_disc]. rewrite F1, F2, F3, (FA s), A. split; [|split; [|split; [exact C|split; [exact D|split; [exact E|]]]]].
  - unfold u64, w64 in *. change (2 ^ 64) with 18446744073709551616. rewrite Zplus_mod, HA, <- Zplus_mod. reflexivity.
  - assert (X : u32 (line_num (f s)) = u32 (line_num s + dl')).
    { destruct (FL s) as [-> |(-> & Z0)].
      - unfold u32, u64, w64, w32. rewrite <- Znumtheory.Zmod_div_mod; [reflexivity|lia|lia|exists 4294967296; reflexivity].
      - unfold u32 in *. rewrite Zplus_mod, Z0, Z.add_0_r, Zmod_mod. reflexivity. }
    rewrite X. unfold u32, w32 in *. change (2 ^ 32) with 4294967296. rewrite Zplus_mod, HL, B, Zplus_mod_idemp_r. reflexivity.
  - split; apply Z.mod_pos_bound; lia.
Qed.

Definition after (i : instr) (s' : lsm) (s : lsm) (r : regs) : Prop :=
  end_sequence s' = is_end i /\ rel s' (if adds_row i then row_regs i r else fst (step P i r)).
Lemma u64_small x : 0 <= x < 2 ^ 63 -> u64 x = x.
Proof. intros H. unfold u64, w64. apply Z.mod_small. lia. Qed.
Lemma rel_same s r s' : rel s r -> address s' = address s -> line_num s' = line_num s -> file_num s' = file_num s -> column_num s' = column_num s -> discriminator s' = discriminator s -> rel s' r.
Proof. intros (A & B & C & D & E & F & G) E1 E2 E3 E4 E5. unfold rel. rewrite E1, E2, E3, E4, E5. auto 10. Qed.
Lemma one_opcode i b rest s r : encoded en asz P i b -> rel s r -> end_sequence s = false ->
  exists s', ProcessOneOpcode en asz wraps h (b ++ rest) s = Ok (adds_row i, s', zlen b, calls_of i) /\ after i s' s r.
Proof.
  intros H R ES. destruct GP as (G1 & G2 & G3 & G4 & G5 & G6). destruct HF as (H1 & H2 & H3 & H4 & H5).
  assert (OB : forall op, is_byte op -> op < p_opcode_base P -> (opcode_base h <=? op) = false) by (intros op _ L; rewrite H4; destruct (Z.leb_spec (p_opcode_base P) op); [lia|reflexivity]).
  unfold after. destruct H as [op L|L|n bs L U|n bs L U|n bs L U|n bs L U|L|L|L|n bs L U|op ops L NI LN FO|i body n X U LB].
  - eexists. split.
    { unfold ProcessOneOpcode. cbn [app]. rewrite one_byte by (unfold is_byte; lia). cbn [obind]. rewrite H4. destruct (Z.leb_spec (p_opcode_base P) op) as [_|Q]; [|lia]. rewrite H3. destruct (Z.eqb_spec (p_line_range P) 0); [lia|]. reflexivity. }
    split; [exact ES|]. cbn [adds_row row_regs]. apply (rel_advance s r _ _ ((op - p_opcode_base P) / p_line_range P * p_min P) (special_line P op) (fun s => set_bb true (set_line (u64 (line_num s + ((op - p_opcode_base P) mod p_line_range P + line_base h))) (set_address (u64 (address s + (op - p_opcode_base P) / p_line_range P * min_insn_length h)) s)))).
    + exact R.
    + unfold special_address. f_equal. lia.
    + reflexivity.
    + intros s0. cbn. rewrite H1. reflexivity.
    + intros s0. left. cbn. unfold special_line. rewrite H2. f_equal. lia.
    + intros s0. cbn. auto.
  - eexists. split.
    { unfold ProcessOneOpcode. cbn [app]. rewrite one_byte by (unfold is_byte; lia). cbn [obind]. rewrite OB by (unfold is_byte; lia). cbn [Z.eqb Pos.eqb]. reflexivity. }
    split; [exact ES|]. apply (rel_same s); [exact R|..]; reflexivity.
  - eexists. split.
    { unfold ProcessOneOpcode. cbn [app]. rewrite one_byte by (unfold is_byte; lia). cbn [obind]. rewrite OB by (unfold is_byte; lia). cbn [Z.eqb Pos.eqb]. rewrite from_1, (uleb_read n bs _ U). cbn [obind]. rewrite zlen_cons. reflexivity. }
    split; [exact ES|]. cbn [adds_row step fst]. apply (rel_advance s r _ _ (u64 (min_insn_length h * n)) 0 (fun s => set_address (u64 (address s + u64 (min_insn_length h * n))) s)); [exact R|..]; try (intros s0; cbn; auto).
    + rewrite H1. unfold u64. apply Zmod_mod.
    + reflexivity.
  - eexists. split.
    { unfold ProcessOneOpcode. cbn [app]. rewrite one_byte by (unfold is_byte; lia). cbn [obind]. rewrite OB by (unfold is_byte; lia). cbn [Z.eqb Pos.eqb]. rewrite from_1, (sleb_read wraps n bs _ U). cbn [obind]. rewrite zlen_cons. reflexivity. }
    split; [exact ES|]. cbn [adds_row step fst]. destruct R as (A & B & C & D & E & F & G). 
    split; [cbn; rewrite Z.add_0_r; rewrite Z.mod_small by lia; exact A|]. split; [|cbn; split; [exact C|split; [exact D|split; [exact E|split; apply Z.mod_pos_bound; lia]]]].
    cbn. rewrite <- B. unfold u32, u64, w64, w32. rewrite <- Znumtheory.Zmod_div_mod; [|lia|lia|exists 4294967296; reflexivity]. change (2 ^ 32) with 4294967296. rewrite Zplus_mod_idemp_l. reflexivity.
  - eexists. split.
    { unfold ProcessOneOpcode. cbn [app]. rewrite one_byte by (unfold is_byte; lia). cbn [obind]. rewrite OB by (unfold is_byte; lia). cbn [Z.eqb Pos.eqb]. rewrite from_1, (uleb_read n bs _ U). cbn [obind]. rewrite zlen_cons. reflexivity. }
    split; [exact ES|]. destruct R as (A & B & C & D & E & F & G). unfold rel. cbn. auto 10.
  - eexists. split.
    { unfold ProcessOneOpcode. cbn [app]. rewrite one_byte by (unfold is_byte; lia). cbn [obind]. rewrite OB by (unfold is_byte; lia). cbn [Z.eqb Pos.eqb]. rewrite from_1, (uleb_read n bs _ U). cbn [obind]. rewrite zlen_cons. reflexivity. }
    split; [exact ES|]. destruct R as (A & B & C & D & E & F & G). unfold rel. cbn. auto 10.
  - eexists. split.
    { unfold ProcessOneOpcode. cbn [app]. rewrite one_byte by (unfold is_byte; lia). cbn [obind]. rewrite OB by (unfold is_byte; lia). cbn [Z.eqb Pos.eqb]. reflexivity. }
    split; [exact ES|]. apply (rel_same s); [exact R|..]; reflexivity.
  - eexists. split.
    { unfold ProcessOneOpcode. cbn [app]. rewrite one_byte by (unfold is_byte; lia). cbn [obind]. rewrite OB by (unfold is_byte; lia). cbn [Z.eqb Pos.eqb]. reflexivity. }
    split; [exact ES|]. apply (rel_same s); [exact R|..]; reflexivity.
  - eexists. split.
    { unfold ProcessOneOpcode. cbn [app]. rewrite one_byte by (unfold is_byte; lia). cbn [obind]. rewrite OB by (unfold is_byte; lia). cbn [Z.eqb Pos.eqb]. rewrite H3. destruct (Z.eqb_spec (p_line_range P) 0); [lia|]. reflexivity. }
    split; [exact ES|]. cbn [adds_row step fst]. apply (rel_advance s r _ _ (special_address P 255) 0 (fun s => set_address (u64 (address s + min_insn_length h * ((255 - opcode_base h) / p_line_range P))) s)); [exact R|reflexivity|reflexivity|..]; intros s0; cbn; auto. unfold special_address. rewrite H1, H4. reflexivity.
  - eexists. split.
    { unfold ProcessOneOpcode. cbn [app]. rewrite one_byte by (unfold is_byte; lia). cbn [obind]. rewrite OB by (unfold is_byte; lia). cbn [Z.eqb Pos.eqb]. rewrite from_1, (two_read en n bs _ U). cbn [obind]. rewrite zlen_cons. destruct U as (-> & _). reflexivity. }
    split; [exact ES|]. cbn [adds_row step fst]. apply (rel_advance s r _ _ n 0 (fun s => set_address (u64 (address s + n)) s)); [exact R|reflexivity|reflexivity|..]; intros s0; cbn; auto.
  - exists s. split.
    { unfold ProcessOneOpcode. cbn [app]. rewrite one_byte by (unfold is_byte; lia). cbn [obind]. rewrite OB by (unfold is_byte; lia).
      cbn [In] in NI. repeat match goal with |- context [op =? ?k] => destruct (Z.eqb_spec op k); [lia|] end. rewrite from_1.
      assert (EN : Z.to_nat (nth (Z.to_nat op) (std_opcode_lengths h) 0) = length ops).
      { rewrite H5. replace (Z.to_nat op) with (S (Z.to_nat (op - 1))) by lia. cbn [nth]. rewrite <- LN. unfold zlen. apply Nat2Z.id. }
      rewrite EN. rewrite skip_read; [cbn [obind]; rewrite zlen_cons; reflexivity|exact FO|lia|]. rewrite LN.
      assert (is_byte (nth (Z.to_nat (op - 1)) (p_lengths P) 0)); [|unfold is_byte in *; lia]. rewrite Forall_forall in G6. apply G6. apply nth_In. unfold zlen in G5. lia. }
    split; [exact ES|exact R].
  - assert (PRE : forall rest', exists l0, ReadUnsignedLEB128 ((n ++ body) ++ rest') = Ok (zlen body, l0) /\ l0 = zlen n /\ from l0 ((n ++ body) ++ rest') = body ++ rest').
    { intros rest'. exists (zlen n). rewrite <- app_assoc, (uleb_read _ _ _ U), from_app. auto. }
    assert (OL : u64 (1 + (zlen n + zlen body)) = zlen (0 :: n ++ body)).
    { pose proof (uleb_len _ _ U). pose proof (zlen_nonneg body). rewrite zlen_cons, zlen_app. unfold u64, w64. apply Z.mod_small. lia. }
    destruct (PRE rest) as (l0 & R1 & R2 & R3). subst l0.
    assert (HD : forall k op tail, is_byte op -> body = op :: tail -> 
       (if op =? 1 then Ok (true, set_end true s, zlen (0 :: n ++ body), []) else if op =? 2 then
      let! a := ReadSized en asz (tail ++ rest) in Ok (false, set_address a s, zlen (0 :: n ++ body), [])
    else if op =? 3 then
      let! filename := cstr (tail ++ rest) in
      let start := from (zlen filename + 1) (tail ++ rest) in
      let! '(dirindex, l) := ReadUnsignedLEB128 start in
      let start := from l start in
      let! '(mod_time, l) := ReadUnsignedLEB128 start in
      let start := from l start in
      let! '(filelength, _) := ReadUnsignedLEB128 start in
      Ok (false, s, zlen (0 :: n ++ body), [EvFile filename (-1) (u32 dirindex) mod_time filelength])
    else if op =? 4 then
      let! '(d, _) := ReadUnsignedLEB128 (tail ++ rest) in Ok (false, set_discriminator (u32 d) s, zlen (0 :: n ++ body), [])
    else Ok (false, s, zlen (0 :: n ++ body), [])) = k -> ProcessOneOpcode en asz wraps h ((0 :: n ++ body) ++ rest) s = k).
    { intros k op tail BO EB <-. unfold ProcessOneOpcode. cbn [app]. rewrite one_byte by (unfold is_byte; lia). cbn [obind]. rewrite OB by (unfold is_byte; lia). cbn [Z.eqb]. rewrite from_1, R1. cbn [obind]. rewrite R3, OL, EB. cbn [app]. rewrite one_byte by exact BO. cbn [obind]. rewrite from_1. reflexivity. }
    inversion X as [E1 E2|a bs F E1 E2|nm d m k b1 b2 b3 N U1 U2 U3 E1 E2|k bs U1 E1 E2|op bs BO NI FB E1 E2]; subst i body.
    + eexists. split; [eapply (HD _ 1 []); [unfold is_byte; lia|reflexivity|cbn [Z.eqb Pos.eqb]; reflexivity]|]. split; [reflexivity|]. apply (rel_same s); [exact R|..]; reflexivity.
    + eexists. split; [eapply (HD _ 2 bs); [unfold is_byte; lia|reflexivity|cbn [Z.eqb Pos.eqb]; rewrite (sized_read en asz a bs _ ASZ F); cbn [obind]; reflexivity]|]. split; [exact ES|]. destruct R as (A & B & C & D & E & FF & G). pose proof (fixed_bound _ _ _ _ F). unfold rel. cbn. assert (256 ^ asz <= 2 ^ 64) by (destruct ASZ as [-> | ->]; cbn; lia). change (2 ^ 64) with 18446744073709551616 in *. split; [reflexivity|]. split; [exact B|]. split; [exact C|]. split; [exact D|]. split; [exact E|]. split; [lia|exact G].
    + eexists. split; [eapply (HD _ 3 (nm ++ 0 :: b1 ++ b2 ++ b3)); [unfold is_byte; lia|reflexivity|]|split; [exact ES|exact R]]. cbn [Z.eqb Pos.eqb].
      assert (EQ : (nm ++ 0 :: b1 ++ b2 ++ b3) ++ rest = (nm ++ [0]) ++ b1 ++ b2 ++ b3 ++ rest) by (rewrite <- !app_assoc; cbn [app]; rewrite <- !app_assoc; reflexivity). rewrite EQ.
      rewrite <- app_assoc. cbn [app]. rewrite cstr_read by exact N. cbn [obind]. cbv zeta. change (nm ++ 0 :: b1 ++ b2 ++ b3 ++ rest) with (nm ++ [0] ++ b1 ++ b2 ++ b3 ++ rest). rewrite app_assoc.
      assert (LN : from (zlen nm + 1) ((nm ++ [0]) ++ b1 ++ b2 ++ b3 ++ rest) = b1 ++ b2 ++ b3 ++ rest) by (apply from_app_n; rewrite zlen_app; reflexivity). rewrite LN.
      rewrite (uleb_read d b1 _ U1). cbn [obind]. rewrite from_app, (uleb_read m b2 _ U2). cbn [obind]. rewrite from_app, (uleb_read k b3 _ U3). cbn [obind]. reflexivity.
    + eexists. split; [eapply (HD _ 4 bs); [unfold is_byte; lia|reflexivity|cbn [Z.eqb Pos.eqb]; rewrite (uleb_read k bs _ U1); cbn [obind]; reflexivity]|]. split; [exact ES|]. destruct R as (A & B & C & D & E & FF & G). unfold rel. cbn. auto 10.
    + exists s. split; [eapply (HD _ op bs); [exact BO|reflexivity|]|split; [exact ES|exact R]]. cbn [In] in NI. repeat match goal with |- context [op =? ?k] => destruct (Z.eqb_spec op k); [lia|] end. reflexivity.
Qed.
End One.
