(** The whole program, the header, the unit. *)
From Verif Require Import Base ByteModel ByteSpec ByteProofs ByteProps DwLineModel DwLineSpec DwLineProofs.

Definition call_of (i : item) : event :=
  match i with
  | Row r => EvLine (r_address r) (r_file r) (r_line r) (r_column r) (r_disc r) false
  | End r => EvLine (r_address r) (r_file r) (r_line r) (r_column r) (r_disc r) true
  | File n d m l => EvFile n (-1) (d mod 2 ^ 32) m l
  end.
Section Loop.
Context (en : endian) (asz : Z) (wraps : bool) (ASZ : asz = 4 \/ asz = 8) (P : params) (GP : good_params P) (h : header) (HF : header_for P h).
Lemma encoded_nonempty i b : encoded en asz P i b -> 1 <= zlen b.
Proof. intros H. destruct H; rewrite zlen_cons; match goal with |- _ <= _ + zlen ?x => pose proof (zlen_nonneg x) end; lia. Qed.
Lemma program_len l bs : encoded_program en asz P l bs -> Z.of_nat (length l) <= zlen bs.
Proof. induction 1 as [|i l b bs E H IH]; [cbn; lia|]. apply encoded_nonempty in E. rewrite zlen_app. cbn [length]. lia. Qed.
Lemma rel_reset st : rel (Reset st) regs0.
Proof. unfold rel. cbn. lia. Qed.
Lemma lines_run l bs : encoded_program en asz P l bs -> forall pre post s r evs fuel,
  rel s r -> end_sequence s = false -> (exists l', l = l' ++ [EndSequence]) -> (3 * length l + 1 <= fuel)%nat ->
  read_lines en asz wraps h fuel (pre ++ bs ++ post) (zlen pre) (zlen pre + zlen bs) (Some s) evs = Some (Ok (evs ++ map call_of (run_program P l r))).
Proof.
  induction 1 as [|i l b bs E H IH]; intros pre post s r evs fuel R ES (l' & EL) FU.
  - destruct l'; discriminate.
  - cbn [length] in FU. destruct fuel as [|fuel]; [lia|]. cbn [read_lines]. rewrite ES, from_app. rewrite <- app_assoc. destruct (one_opcode en asz wraps ASZ P GP h HF i b (bs ++ post) s r E R ES) as (s' & E1 & E2 & E3). rewrite E1. pose proof (encoded_nonempty i b E) as NB.
    assert (POS : zlen pre + zlen b = zlen (pre ++ b)) by (rewrite zlen_app; reflexivity). assert (STOP : zlen pre + zlen (b ++ bs) = zlen (pre ++ b) + zlen bs) by (rewrite !zlen_app; lia).
    assert (BUF : pre ++ b ++ bs ++ post = (pre ++ b) ++ bs ++ post) by (rewrite <- !app_assoc; reflexivity). rewrite POS, STOP, BUF. cbn [run_program]. rewrite map_app.
    assert (TL : (i = EndSequence /\ l = []) \/ exists l'', l = l'' ++ [EndSequence]).
    { destruct l' as [|x l']; cbn [app] in EL; [left; split; congruence|]. right. exists l'. congruence. }
    destruct (is_end i) eqn:IE.
    + destruct i; try discriminate. cbn [adds_row calls_of] in *. cbn [step fst snd map call_of]. destruct E3 as (A & B & C & D & EE & _). cbn [row_regs] in *. rewrite A, B, C, D, EE, E2, app_nil_r.
      assert (ES2 : end_sequence (set_discriminator 0 (set_bb false s')) = true) by exact E2.
      destruct fuel as [|fuel]; [lia|]. cbn [read_lines]. rewrite ES2. destruct fuel as [|fuel]; [lia|]. cbn [read_lines]. destruct TL as [(_ & ->)|TL].
      * inversion H; subst bs. rewrite zlen_nil, Z.add_0_r, Z.ltb_irrefl. cbn [run_program map app]. reflexivity.
      * assert (LT : zlen (pre ++ b) < zlen (pre ++ b) + zlen bs). { pose proof (program_len l bs H). destruct TL as (l'' & ->). rewrite app_length in *. cbn [length] in *. lia. }
        apply Z.ltb_lt in LT. rewrite LT. rewrite (IH (pre ++ b) post (Reset (default_is_stmt h)) regs0 _ fuel (rel_reset _) eq_refl TL ltac:(lia)). rewrite <- app_assoc. reflexivity.
    + destruct TL as [(-> & _)|TL]; [discriminate|]. assert (CALLS : forall x, In x (snd (step P i r)) -> adds_row i = false -> True) by auto.
      destruct (adds_row i) eqn:AR.
      * assert (ROW : calls_of i = [] /\ snd (step P i r) = [Row (row_regs P i r)] /\ fst (step P i r) = no_disc (row_regs P i r)) by (destruct i; try discriminate; auto). destruct ROW as (R1 & R2 & R3). rewrite R1, R2, R3, app_nil_r. cbn [map call_of].
        destruct E3 as (A & B & C & D & EE & F & G). rewrite A, B, C, D, EE, E2.
        rewrite (IH (pre ++ b) post _ (no_disc (row_regs P i r)) _ fuel); [rewrite <- app_assoc; reflexivity| |exact E2|exact TL|lia].
        unfold rel. cbn. auto 10.
      * assert (ITEMS : map call_of (snd (step P i r)) = calls_of i) by (destruct i; try discriminate; reflexivity). rewrite ITEMS. rewrite (IH (pre ++ b) post s' (fst (step P i r)) _ fuel E3 E2 TL ltac:(lia)). rewrite <- app_assoc. reflexivity.
Qed.
Lemma program_run l bs pre post fuel : encoded_program en asz P l bs -> sequences_end l -> (3 * length l + 2 <= fuel)%nat ->
  read_lines en asz wraps h fuel (pre ++ bs ++ post) (zlen pre) (zlen pre + zlen bs) None [] = Some (Ok (map call_of (run_program P l regs0))).
Proof.
  intros H SE FU. destruct fuel as [|fuel]; [lia|]. cbn [read_lines]. destruct SE as [-> |SE].
  - inversion H; subst. rewrite zlen_nil, Z.add_0_r, Z.ltb_irrefl. reflexivity.
  - assert (LT : zlen pre < zlen pre + zlen bs). { pose proof (program_len l bs H). destruct SE as (l'' & ->). rewrite app_length in *. cbn [length] in *. lia. }
    apply Z.ltb_lt in LT. rewrite LT. rewrite (lines_run l bs H pre post (Reset (default_is_stmt h)) regs0 [] fuel (rel_reset _) eq_refl SE ltac:(lia)). reflexivity.
Qed.
End Loop.

(** *** The header *)
Lemma adv n a b : zlen a = n -> 0 < zlen b -> AdvanceLinePtr n (a ++ b) = Ok (Some b).
Proof. intros L B. unfold AdvanceLinePtr. rewrite zlen_app. destruct (Z.leb_spec (zlen a + zlen b) n); [lia|]. rewrite from_app_n by exact L. reflexivity. Qed.
Lemma byte_read b rest : is_byte b -> 0 < zlen rest -> byte (b :: rest) = Ok (Some (b, rest)).
Proof. intros B L. unfold byte. rewrite one_byte by exact B. cbn [hlift obind hbind]. pose proof (adv 1 [b] rest eq_refl L) as AD. cbn [app] in AD. rewrite AD. reflexivity. Qed.
Lemma uleb_adv v bs rest : uleb_of v bs -> 0 < zlen rest -> uleb (bs ++ rest) = Ok (Some (v, rest)).
Proof. intros U L. unfold uleb. rewrite (uleb_read v bs _ U). cbn [hlift obind hbind]. rewrite (adv (zlen bs) bs rest) by (reflexivity || exact L). reflexivity. Qed.
Lemma lengths_read l : forall rest, Forall is_byte l -> 0 < zlen rest -> read_lengths (length l) (l ++ rest) = Ok (Some (l, rest)).
Proof.
  induction l as [|b l IH]; intros rest F L; [reflexivity|]. inversion F; subst. cbn [length read_lengths app]. rewrite byte_read; [|assumption|rewrite zlen_app; pose proof (zlen_nonneg l); lia]. cbn [hbind]. rewrite IH by assumption. reflexivity.
Qed.
Fixpoint dir_events (k : Z) (l : list (list Z)) : list event := match l with [] => [] | s :: l' => EvDir s k :: dir_events (k + 1) l' end.
Fixpoint file_events (k : Z) (l : list (list Z * Z * Z * Z)) : list event :=
  match l with [] => [] | (s, d, m, n) :: l' => EvFile s k (u32 d) m n :: file_events (k + 1) l' end.
Lemma encoded_dirs_len l bs : encoded_dirs l bs -> Z.of_nat (length l) < zlen bs.
Proof. induction 1 as [|s l bs N S0 H IH]; [reflexivity|]. cbn [length]. rewrite zlen_app, zlen_cons. pose proof (zlen_nonneg s). lia. Qed.
Lemma encoded_files_len l bs : encoded_files l bs -> Z.of_nat (length l) < zlen bs.
Proof. induction 1 as [|s d m n b1 b2 b3 l bs N S0 U1 U2 U3 H IH]; [reflexivity|]. cbn [length]. rewrite zlen_app, zlen_cons, !zlen_app. pose proof (zlen_nonneg s). pose proof (zlen_nonneg b1). pose proof (zlen_nonneg b2). pose proof (zlen_nonneg b3). lia. Qed.
Lemma name_head s rest : s <> [] -> is_name s -> exists c, is_byte c /\ c <> 0 /\ ReadOneByte (s ++ rest) = Ok c.
Proof. intros N H. destruct s as [|c s]; [congruence|]. inversion H as [|? ? (A & B) _]; subst. exists c. split; [exact A|]. split; [exact B|]. cbn [app]. apply one_byte. exact A. Qed.
Lemma dirs_read l bs : encoded_dirs l bs -> forall rest k fuel, (length l < fuel)%nat -> 0 <= k -> k + Z.of_nat (length l) < 2 ^ 32 -> 
  read_dirs fuel k (bs ++ rest) = Ok (Some (dir_events k l, 0 :: rest)).
Proof.
  induction 1 as [|s l bs N S0 H IH]; intros rest k fuel FU K0 K; (destruct fuel as [|fuel]; [lia|]); cbn [read_dirs length] in *.
  - cbn [app]. rewrite one_byte by (unfold is_byte; lia). reflexivity.
  - rewrite <- app_assoc. destruct (name_head s ((0 :: bs) ++ rest) N S0) as (c & C1 & C2 & C3). rewrite C3. cbn [hlift obind hbind]. destruct (Z.eqb_spec c 0); [contradiction|]. cbn [app]. rewrite cstr_read by exact S0. cbn [hlift obind hbind].
    pose proof (encoded_dirs_len _ _ H). change (s ++ 0 :: bs ++ rest) with (s ++ [0] ++ bs ++ rest). rewrite app_assoc. rewrite (adv (zlen s + 1) (s ++ [0])); [|rewrite zlen_app; reflexivity|rewrite zlen_app; pose proof (zlen_nonneg rest); lia]. cbn [hbind].
    assert (KE : u32 (k + 1) = k + 1) by (unfold u32, w32; apply Z.mod_small; lia). rewrite KE, IH by lia. reflexivity.
Qed.
Lemma files_read l bs : encoded_files l bs -> forall rest k fuel, (length l < fuel)%nat -> 0 <= k -> k + Z.of_nat (length l) < 2 ^ 32 -> 
  read_files fuel k (bs ++ rest) = Ok (Some (file_events k l, 0 :: rest)).
Proof.
  induction 1 as [|s d m n b1 b2 b3 l bs N S0 U1 U2 U3 H IH]; intros rest k fuel FU K0 K; (destruct fuel as [|fuel]; [lia|]); cbn [read_files length] in *.
  - cbn [app]. rewrite one_byte by (unfold is_byte; lia). reflexivity.
  - rewrite <- app_assoc. destruct (name_head s ((0 :: b1 ++ b2 ++ b3 ++ bs) ++ rest) N S0) as (c & C1 & C2 & C3). rewrite C3. cbn [hlift obind hbind]. destruct (Z.eqb_spec c 0); [contradiction|]. cbn [app]. rewrite cstr_read by exact S0. cbn [hlift obind hbind].
    pose proof (encoded_files_len _ _ H) as LE. pose proof (zlen_nonneg rest). pose proof (zlen_nonneg b2). pose proof (zlen_nonneg b3). pose proof (uleb_len _ _ U1). change (s ++ 0 :: (b1 ++ b2 ++ b3 ++ bs) ++ rest) with (s ++ [0] ++ (b1 ++ b2 ++ b3 ++ bs) ++ rest). rewrite app_assoc. rewrite <- !app_assoc. rewrite app_assoc.
    rewrite (adv (zlen s + 1) (s ++ [0])); [|rewrite zlen_app; reflexivity|rewrite !zlen_app; lia]. cbn [hbind].
    rewrite (uleb_adv d b1) by (try exact U1; rewrite !zlen_app; lia). cbn [hbind]. rewrite (uleb_adv m b2) by (try exact U2; rewrite !zlen_app; lia). cbn [hbind]. rewrite (uleb_adv n b3) by (try exact U3; rewrite !zlen_app; lia). cbn [hbind].
    assert (KE : u32 (k + 1) = k + 1) by (unfold u32, w32; apply Z.mod_small; lia). rewrite KE, IH by lia. reflexivity.
Qed.
Section Header.
Context (en : endian) (asz osz : Z) (wraps : bool) (ASZ : asz = 4 \/ asz = 8) (line_str str : option (list Z)).
Lemma osz_ok n il : initial_length en osz n il -> osz = 4 \/ osz = 8.
Proof. intros [(-> & _)|(-> & _)]; auto. Qed.
Lemma initial_read n il rest : initial_length en osz n il -> 
  ReadInitialLength en (il ++ rest) = Ok (n, zlen il, osz) /\ zlen il = (if osz =? 8 then 12 else 4) /\ 0 <= n.
Proof.
  intros [(-> & B & F)|(-> & b & -> & F)]; pose proof (fixed_bound _ _ _ _ F) as FB; destruct F as (L & F & V).
  - unfold zlen in L. destruct (C24_initial_length en il [0; 0; 0; 0; 0; 0; 0; 0] rest F ltac:(lia) ltac:(repeat constructor; unfold is_byte; lia) eq_refl) as (H & _).
    assert (VE : en_value en il = n) by (destruct en; exact V). rewrite H by lia. rewrite VE. unfold zlen. rewrite L. split; [reflexivity|]. split; [reflexivity|lia].
  - unfold zlen in L. destruct (C24_initial_length en [0; 0; 0; 0] b rest ltac:(repeat constructor; unfold is_byte; lia) eq_refl F ltac:(lia)) as (_ & H).
    assert (VE : en_value en b = n) by (destruct en; exact V). rewrite <- app_assoc. rewrite H, VE. unfold zlen. rewrite app_length. cbn [length]. split; [f_equal; f_equal; f_equal; lia|]. split; [cbn; lia|lia].
Qed.
Lemma header_read u bs rest : encoded_unit en asz osz u bs -> good_params (u_params u) -> zlen (u_dirs u) < 2 ^ 31 -> zlen (u_files u) < 2 ^ 31 - 1 ->
  exists h pre prog, bs = pre ++ prog /\ encoded_program en asz (u_params u) (u_program u) prog /\ header_for (u_params u) h /\
    ReadHeader en asz line_str str (bs ++ rest) = Ok (Some (h, dir_events 1 (u_dirs u) ++ file_events 1 (u_files u), prog ++ rest, zlen bs)).
Proof.
  intros H (G1 & G2 & G3 & G4 & G5 & G6) LD LF. destruct H as [il ver hl mx st lb tail dirs_ files_ prog V FV MX SB SE LB ED EF EP TE HL IL].
  set (h := {| version := u_version u; min_insn_length := p_min (u_params u); default_is_stmt := negb (st =? 0); line_base := p_line_base (u_params u); line_range := p_line_range (u_params u); opcode_base := p_opcode_base (u_params u); std_opcode_lengths := 0 :: p_lengths (u_params u) |}).
  exists h, (il ++ ver ++ hl ++ tail), prog. split; [rewrite <- !app_assoc; reflexivity|]. split; [exact EP|]. split; [unfold header_for, h; cbn; auto 10|].
  pose proof (osz_ok _ _ IL) as OZ. set (body := tail ++ prog ++ rest).
  assert (BUF : (il ++ ver ++ hl ++ tail ++ prog) ++ rest = il ++ ver ++ hl ++ body) by (unfold body; rewrite <- !app_assoc; reflexivity). rewrite BUF.
  pose proof (encoded_dirs_len _ _ ED) as DL. pose proof (encoded_files_len _ _ EF) as FL. pose proof (zlen_nonneg prog). pose proof (zlen_nonneg rest). pose proof (zlen_nonneg mx). pose proof (zlen_nonneg (p_lengths (u_params u))).
  assert (BL : 0 < zlen body) by (unfold body; rewrite TE; cbn [app]; rewrite zlen_cons; match goal with |- 0 < _ + zlen ?x => pose proof (zlen_nonneg x) end; lia).
  destruct (initial_read _ il (ver ++ hl ++ body) IL) as (R1 & R2 & R3). unfold ReadHeader. rewrite R1. cbn [hlift obind hbind].
  assert (VL : zlen ver = 2) by apply FV. assert (HLL : zlen hl = osz) by apply HL.
  rewrite (adv (zlen il) il); [|reflexivity|rewrite !zlen_app; lia]. cbn [hbind].
  assert (TOT : zlen (il ++ ver ++ hl ++ body) = zlen il + (2 + osz + zlen tail + zlen prog) + zlen rest) by (unfold body; rewrite !zlen_app; lia). rewrite TOT.
  destruct (Z.ltb_spec (zlen il + (2 + osz + zlen tail + zlen prog) + zlen rest) (zlen il + (2 + osz + zlen tail + zlen prog))) as [Q|_]; [lia|].
  destruct (Z.eqb_spec asz 0) as [Q|_]; [lia|]. rewrite (two_read en (u_version u) ver _ FV). cbn [hlift obind hbind]. rewrite (adv 2 ver) by (try exact VL; rewrite !zlen_app; lia). cbn [hbind].
  destruct (Z.ltb_spec (u_version u) 2) as [Q|_]; [lia|]. destruct (Z.ltb_spec 5 (u_version u)) as [Q|_]; [lia|]. cbn [orb andb]. destruct (Z.eqb_spec (u_version u) 5) as [Q|_]; [lia|]. cbn [hbind].
  rewrite (sized_read en osz (zlen tail) hl _ OZ HL). cbn [hlift obind hbind]. rewrite (adv osz hl) by assumption. cbn [hbind].
  assert (SZ : zlen il + (2 + osz + zlen tail + zlen prog) = zlen (il ++ ver ++ hl ++ tail ++ prog)) by (rewrite !zlen_app; lia). rewrite <- SZ. clear SZ.
  unfold body. set (tl := zlen tail) in *. rewrite TE, <- !app_assoc. cbn [app].
  set (lt := p_lengths (u_params u) ++ dirs_ ++ files_ ++ prog ++ rest). assert (LT : 0 < zlen lt) by (unfold lt; rewrite !zlen_app; lia).
  rewrite byte_read by (try (unfold is_byte; lia); rewrite ?zlen_app, !zlen_cons; lia). cbn [hbind].
  assert (MXR : (if 4 <=? u_version u then hbind (byte (mx ++ st :: lb :: p_line_range (u_params u) :: p_opcode_base (u_params u) :: lt)) (fun '(_, p) => Ok (Some p)) else Ok (Some (mx ++ st :: lb :: p_line_range (u_params u) :: p_opcode_base (u_params u) :: lt))) = Ok (Some (st :: lb :: p_line_range (u_params u) :: p_opcode_base (u_params u) :: lt))).
  { destruct (4 <=? u_version u); [|rewrite MX; reflexivity]. destruct MX as (m & -> & MB). cbn [app]. rewrite byte_read; [reflexivity|exact MB|rewrite !zlen_cons; lia]. }
  rewrite MXR. cbn [hbind]. destruct LB as (LB1 & LB2).
  rewrite byte_read by (try assumption; rewrite !zlen_cons; lia). cbn [hbind]. rewrite byte_read by (try assumption; rewrite !zlen_cons; lia). cbn [hbind].
  rewrite byte_read by (try (unfold is_byte; lia); rewrite !zlen_cons; lia). cbn [hbind]. rewrite byte_read by (try (unfold is_byte; lia); lia). cbn [hbind].
  assert (NL : Z.to_nat (p_opcode_base (u_params u) - 1) = length (p_lengths (u_params u))) by (unfold zlen in G5; lia). rewrite NL. unfold lt. rewrite lengths_read by (try assumption; rewrite !zlen_app; lia). cbn [hbind].
  destruct (Z.eqb_spec (u_version u) 61446) as [Q|_]; [lia|].
  rewrite (dirs_read _ _ ED) by (unfold zlen in *; rewrite ?app_length; lia). cbn [hbind]. pose proof (adv 1 [0] (files_ ++ prog ++ rest) eq_refl ltac:(rewrite !zlen_app; lia)) as AD. cbn [app] in AD. rewrite AD. cbn [hbind].
  rewrite (files_read _ _ EF) by (unfold zlen in *; rewrite ?app_length; lia). cbn [hbind]. rewrite from_1. unfold schar. rewrite <- LB2. rewrite <- R2. fold h.
  reflexivity.
Qed.
(** the calls for a unit *)
Definition unit_calls (u : unit_) : list event :=
  dir_events 1 (u_dirs u) ++ file_events 1 (u_files u) ++ map call_of (run_program (u_params u) (u_program u) regs0).
Lemma start_read u bs rest fuel : encoded_unit en asz osz u bs -> good_params (u_params u) -> zlen (u_dirs u) < 2 ^ 31 -> zlen (u_files u) < 2 ^ 31 - 1 -> sequences_end (u_program u) ->
  (3 * length bs + 2 <= fuel)%nat ->
  Start en asz wraps line_str str fuel (bs ++ rest) = Some (Ok (unit_calls u, zlen bs)).
Proof.
  intros EU GP LD LF SE FU. destruct (header_read u bs rest EU GP LD LF) as (h & pre & prog & -> & EP & HF & RH). unfold Start. rewrite RH.
  assert (POS : zlen ((pre ++ prog) ++ rest) - zlen (prog ++ rest) = zlen pre) by (rewrite !zlen_app; lia). rewrite POS, <- app_assoc. rewrite zlen_app.
  pose proof (program_len en asz _ _ _ EP) as PL. rewrite (program_run en asz wraps ASZ _ GP h HF _ _ pre rest fuel EP SE) by (rewrite app_length in FU; unfold zlen in PL; lia). unfold unit_calls. rewrite app_assoc. reflexivity.
Qed.
End Header.
