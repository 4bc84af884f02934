From Verif Require Import Base ByteSpec DwarfRangesSpec DwarfRangesProofs SymbolModel ElfModel ElfSpec.

Lemma zlen_app' {A} (a b : list A) : zlen (a ++ b) = zlen a + zlen b.
Proof. unfold zlen. rewrite app_length. lia. Qed.
Lemma zlen_le_bytes n v : zlen (le_bytes n v) = Z.of_nat n.
Proof. unfold zlen. rewrite le_bytes_len. reflexivity. Qed.
Lemma zlen_pos {A} (a : list A) : 0 <= zlen a.
Proof. unfold zlen. lia. Qed.

Lemma slice_mid pre bs post n : zlen bs = n -> slice (pre ++ bs ++ post) (zlen pre) n = bs.
Proof.
  intros <-. unfold slice, zlen. rewrite !Nat2Z.id.
  rewrite skipn_app, skipn_all, Nat.sub_diag. cbn [app skipn].
  rewrite firstn_app, Nat.sub_diag, firstn_all. cbn [firstn]. apply app_nil_r.
Qed.
Lemma slice_here bs post n : zlen bs = n -> slice (bs ++ post) 0 n = bs.
Proof. intros L. apply (slice_mid [] bs post n L). Qed.
Lemma slice_at f off bs n : at_offset f off bs -> zlen bs = n -> slice f off n = bs.
Proof. intros (pre & post & -> & <-) L. apply slice_mid, L. Qed.
Lemma pread_at f off bs n : at_offset f off bs -> zlen bs = n -> pread f n off = Some bs.
Proof.
  intros A L. unfold pread. rewrite (slice_at _ _ _ _ A L).
  destruct A as (pre & post & -> & <-). rewrite !zlen_app'. pose proof (zlen_pos post).
  destruct (Z.leb_spec (zlen pre + n) (zlen pre + (zlen bs + zlen post))); [reflexivity|lia].
Qed.
Lemma at_app f off a b : at_offset f off (a ++ b) -> at_offset f off a /\ at_offset f (off + zlen a) b.
Proof.
  intros (pre & post & -> & <-). split.
  - exists pre, (b ++ post). rewrite <- app_assoc. auto.
  - exists (pre ++ a), post. rewrite <- !app_assoc, zlen_app'. auto.
Qed.
Lemma at_nonneg f off a : at_offset f off a -> 0 <= off.
Proof. intros (pre & post & _ & <-). apply zlen_pos. Qed.

Lemma field_here w v rest n : n = Z.of_nat w -> num w v -> field (le_bytes w v ++ rest) 0 n = v.
Proof.
  intros -> V. unfold field. rewrite slice_here by apply zlen_le_bytes. apply le_bytes_value, V.
Qed.
Lemma slice_skip a b off n : zlen a <= off -> slice (a ++ b) off n = slice b (off - zlen a) n.
Proof.
  intros L. unfold slice. f_equal. rewrite skipn_app.
  rewrite (skipn_all2 a) by (unfold zlen in L; lia). cbn [app]. f_equal. unfold zlen. lia.
Qed.
Lemma field_skip w v rest off n : Z.of_nat w <= off -> field (le_bytes w v ++ rest) off n = field rest (off - Z.of_nat w) n.
Proof.
  intros L. unfold field. rewrite slice_skip, zlen_le_bytes; [reflexivity|rewrite zlen_le_bytes; exact L].
Qed.
Lemma field_skip' a rest off n : zlen a <= off -> field (a ++ rest) off n = field rest (off - zlen a) n.
Proof. intros L. unfold field. rewrite slice_skip by exact L. reflexivity. Qed.

Ltac fskip := rewrite field_skip by (vm_compute; discriminate).
Ltac fgo := 
  match goal with
  | |- field (le_bytes ?w ?v ++ ?rest) ?off ?n = ?r =>
      first [ let o := eval vm_compute in off in
              match o with Z0 => change off with 0; apply field_here; [reflexivity|assumption] end
            | rewrite field_skip by (vm_compute; discriminate); fgo ]
  | |- field (le_bytes ?w ?v) ?off ?n = ?r => rewrite <- (app_nil_r (le_bytes w v)); fgo
  end.

Lemma zlen_enc_shdr b s : zlen (enc_shdr b s) = shdr_size b.
Proof. unfold enc_shdr; destruct b; rewrite !zlen_app', !zlen_le_bytes; reflexivity. Qed.
Lemma zlen_enc_phdr b s : zlen (enc_phdr b s) = phdr_size b.
Proof. unfold enc_phdr; destruct b; rewrite !zlen_app', !zlen_le_bytes; reflexivity. Qed.
Lemma zlen_enc_sym b s : zlen (enc_sym b s) = sym_size b.
Proof. unfold enc_sym; destruct b; rewrite !zlen_app', !zlen_le_bytes; reflexivity. Qed.
Lemma zlen_enc_ehdr b h pad a1 a2 a3 a4 a5 a6 : zlen pad = 10 -> zlen (enc_ehdr b h pad a1 a2 a3 a4 a5 a6) = ehdr_size b.
Proof. intros P. unfold enc_ehdr; destruct b; rewrite !zlen_app', !zlen_le_bytes, P; reflexivity. Qed.

Lemma get_enc_shdr b s : shdr_fits b s -> get_shdr b (enc_shdr b s) = s.
Proof.
  intros (F1 & F2 & F3 & F4 & F5 & F6 & F7 & F8 & F9 & F10). destruct s as [x1 x2 x3 x4 x5 x6 x7 x8 x9 x10]; cbn [sh_name sh_type sh_flags sh_addr sh_offset sh_size sh_link sh_info sh_addralign sh_entsize] in *.
  destruct b; unfold get_shdr, enc_shdr; cbn [wide sh_name sh_type sh_flags sh_addr sh_offset sh_size sh_link sh_info sh_addralign sh_entsize] in *;
    f_equal; fgo.
Qed.
Lemma get_enc_phdr b s : phdr_fits b s -> get_phdr b (enc_phdr b s) = s.
Proof.
  intros (F1 & F2 & F3 & F4 & F5 & F6 & F7 & F8). destruct s as [x1 x2 x3 x4 x5 x6 x7 x8]; cbn [p_type p_flags p_offset p_vaddr p_paddr p_filesz p_memsz p_align] in *.
  destruct b; unfold get_phdr, enc_phdr; cbn [wide p_type p_flags p_offset p_vaddr p_paddr p_filesz p_memsz p_align] in *;
    f_equal; fgo.
Qed.
Lemma get_enc_sym b s : sym_fits b s -> get_sym b (enc_sym b s) = s.
Proof.
  intros (F1 & F2 & F3 & F4 & F5 & F6). destruct s as [x1 x2 x3 x4 x5 x6]; cbn [st_name st_info st_other st_shndx st_value st_size] in *.
  destruct b; unfold get_sym, enc_sym; cbn [wide st_name st_info st_other st_shndx st_value st_size] in *;
    f_equal; fgo.
Qed.
Lemma get_enc_ehdr b h pad a1 a2 a3 a4 a5 a6 : zlen pad = 10 -> ehdr_fits b h -> get_ehdr b (enc_ehdr b h pad a1 a2 a3 a4 a5 a6) = h.
Proof.
  intros P (F1 & F2 & F3 & F4 & F5 & F6 & F7). destruct h as [x1 x2 x3 x4 x5 x6 x7]; cbn [e_type e_machine e_phoff e_shoff e_phnum e_shnum e_shstrndx] in *.
  destruct b; unfold get_ehdr, enc_ehdr; cbn [wide e_type e_machine e_phoff e_shoff e_phnum e_shnum e_shstrndx] in *;
    f_equal; rewrite field_skip' by (vm_compute; discriminate);
    rewrite field_skip' by (rewrite P; vm_compute; discriminate);
    rewrite P; fgo.
Qed.

Lemma entries_concat {A} (w : Z) (get : list Z -> A) (enc : A -> list Z) (l : list A) rest :
  (forall x, In x l -> zlen (enc x) = w /\ get (enc x) = x) ->
  entries (length l) w get (concat (map enc l) ++ rest) = l.
Proof.
  induction l as [|x l IH]; intros H; [reflexivity|].
  cbn [length entries map concat]. destruct (H x (or_introl eq_refl)) as [L G].
  rewrite <- app_assoc, slice_here, G by exact L. f_equal.
  replace (skipn (Z.to_nat w) (enc x ++ concat (map enc l) ++ rest)) with (concat (map enc l) ++ rest).
  2:{ rewrite <- L. unfold zlen. rewrite Nat2Z.id, skipn_app, skipn_all, Nat.sub_diag. reflexivity. }
  apply IH. intros; apply H; right; assumption.
Qed.
Lemma zlen_concat {A} (w : Z) (enc : A -> list Z) (l : list A) :
  (forall x, zlen (enc x) = w) -> zlen (concat (map enc l)) = zlen l * w.
Proof.
  intros H. induction l as [|x l IH]; [reflexivity|].
  cbn [map concat]. rewrite zlen_app', IH, H. unfold zlen; cbn [length]. lia.
Qed.

Lemma to_int_small x : 0 <= x < 2 ^ 31 -> to_int x = x.
Proof.
  intros H. unfold to_int. rewrite Z.mod_small by lia. destruct (Z.ltb_spec x (2 ^ 31)); lia.
Qed.

(** the reader of a file *)
Definition reads (is64 : bool) (h : ehdr) (shs : list shdr) (phs : list segment) (stridx : Z) (el : elf) : Prop :=
  el_64 el = is64 /\ el_hdr el = h /\ el_sections el = Some shs /\ 
  GetNumSections (el_hdr el) (el_first el) = zlen shs /\ GetStringTableIndex (el_hdr el) (el_first el) = stridx /\
  (e_phnum h <> 65535 \/ e_shnum h = 0 ->
   el_segments el = Some phs /\ GetNumProgramHeaders (el_hdr el) (el_first el) = zlen phs).

Lemma parse_reads is64 h shs phs stridx f : elf_file is64 h shs phs stridx f ->
  exists el, ParseHeaders is64 f = Ok el /\ reads is64 h shs phs stridx el.
Proof.
  intros (FH & FS & FP & (pad & a1 & a2 & a3 & a4 & a5 & a6 & PL & EH) & TY & SO & AS & AP & CN & NS & NP).
  pose proof (zlen_enc_ehdr is64 h pad a1 a2 a3 a4 a5 a6 PL) as LH.
  unfold ParseHeaders. rewrite (pread_at _ _ _ _ EH LH).
  assert (H0 : get_ehdr is64 (slice (f ++ repeat 0 64) 0 (ehdr_size is64)) = h).
  { destruct EH as (pre & post & -> & Z0). destruct pre; [|unfold zlen in Z0; cbn in Z0; lia].
    cbn [app]. rewrite <- app_assoc, slice_here by exact LH. apply get_enc_ehdr; assumption. }
  rewrite H0. cbv zeta.
  assert (T : negb ((e_type h =? 2) || (e_type h =? 3) || (e_type h =? 1)) = false).
  { destruct TY as [-> | [-> | ->]]; reflexivity. }
  rewrite T. clear T. destruct (Z.eqb_spec (e_shoff h) 0); [lia|].
  destruct CN as (first & rest & E1 & C1 & C2 & C2' & C3 & C4 & C5).
  assert (LS : zlen (concat (map (enc_shdr is64) shs)) = zlen shs * shdr_size is64) by (apply zlen_concat, zlen_enc_shdr).
  assert (LP : zlen (concat (map (enc_phdr is64) phs)) = zlen phs * phdr_size is64) by (apply zlen_concat, zlen_enc_phdr).
  assert (FI : (if e_shnum h =? 0 then pread f (shdr_size is64) (e_shoff h) else Some []) =
               Some (if e_shnum h =? 0 then enc_shdr is64 first else [])).
  { destruct (Z.eqb_spec (e_shnum h) 0); [|reflexivity].
    apply pread_at; [|apply zlen_enc_shdr]. rewrite E1 in AS. cbn [map concat] in AS. apply at_app in AS. apply AS. }
  rewrite FI.
  set (fst' := if e_shnum h =? 0 then get_shdr is64 (if e_shnum h =? 0 then enc_shdr is64 first else []) else shdr0).
  assert (F1 : e_shnum h = 0 -> fst' = first).
  { intros E. unfold fst'. rewrite E. cbn [Z.eqb]. apply get_enc_shdr. rewrite E1 in FS. inversion FS; assumption. }
  assert (N : GetNumSections h fst' = zlen shs).
  { unfold GetNumSections, HasManySections. destruct (Z.eqb_spec (e_shnum h) 0) as [E|E]; [|exact C1].
    rewrite (F1 E), C1. apply to_int_small. pose proof (zlen_pos shs). lia. }
  assert (SI : GetStringTableIndex h fst' = stridx).
  { unfold GetStringTableIndex, HasManySections. rewrite N. destruct (Z.eqb_spec (e_shnum h) 0) as [E|E].
    - rewrite (F1 E). destruct (Z.eqb_spec (e_shstrndx h) 65535) as [E'|E'].
      + rewrite C3. apply to_int_small. lia.
      + destruct (Z.leb_spec (zlen shs) (e_shstrndx h)); lia.
    - destruct (Z.eqb_spec (e_shstrndx h) 65535) as [E'|E']; [|exact C3]. elim E. apply C4. exact E'. }
  assert (PN : e_phnum h <> 65535 \/ e_shnum h = 0 -> GetNumProgramHeaders h fst' = zlen phs).
  { intros D. unfold GetNumProgramHeaders, HasManySections.
    destruct (Z.eqb_spec (e_phnum h) 65535) as [E|E].
    - destruct D as [D|D]; [lia|]. rewrite (F1 D), D. cbn [Z.eqb andb].
      specialize (C2' E). destruct (Z.eqb_spec (sh_info first) 0); [lia|]. cbn [negb].
      rewrite C2. apply to_int_small. pose proof (zlen_pos phs). lia.
    - rewrite Bool.andb_false_r. exact C2. }
  clearbody fst'.
  assert (PB : 0 <= GetNumProgramHeaders h fst' < 2 ^ 24).
  { destruct (Z.eq_dec (e_phnum h) 65535) as [E|E]; [|rewrite PN by (left; exact E); pose proof (zlen_pos phs); lia].
    destruct (Z.eq_dec (e_shnum h) 0) as [E'|E']; [rewrite PN by (right; exact E'); pose proof (zlen_pos phs); lia|].
    unfold GetNumProgramHeaders, HasManySections. destruct (Z.eqb_spec (e_shnum h) 0); [contradiction|]. cbn [andb]. lia. }
  rewrite N.
  assert (BS : (zlen shs * shdr_size is64 <? 0) || (2 ^ 31 <=? zlen shs * shdr_size is64) = false).
  { apply Bool.orb_false_iff. pose proof (zlen_pos shs). destruct is64; cbn [shdr_size]; split; [apply Z.ltb_ge|apply Z.leb_gt|apply Z.ltb_ge|apply Z.leb_gt]; lia. }
  rewrite BS. rewrite (pread_at _ _ _ _ AS LS).
  assert (BP : (GetNumProgramHeaders h fst' <? 0) || (2 ^ 31 <=? GetNumProgramHeaders h fst' * phdr_size is64) = false).
  { apply Bool.orb_false_iff. destruct is64; cbn [phdr_size]; split; [apply Z.ltb_ge|apply Z.leb_gt|apply Z.ltb_ge|apply Z.leb_gt]; lia. }
  rewrite BP.
  eexists. split; [reflexivity|]. unfold reads. cbn [el_64 el_hdr el_sections el_first el_segments].
  split; [reflexivity|]. split; [reflexivity|].
  split; [f_equal; unfold zlen at 1; rewrite Nat2Z.id; rewrite <- (app_nil_r (concat _)); apply entries_concat;
          intros x Hx; split; [apply zlen_enc_shdr|apply get_enc_shdr; rewrite Forall_forall in FS; apply FS, Hx]|].
  split; [exact N|]. split; [exact SI|].
  intros D. rewrite (PN D). split; [|reflexivity].
  rewrite (pread_at _ _ _ _ AP LP). f_equal. unfold zlen at 1; rewrite Nat2Z.id. rewrite <- (app_nil_r (concat _)); apply entries_concat.
  intros x Hx; split; [apply zlen_enc_phdr|apply get_enc_phdr; rewrite Forall_forall in FP; apply FP, Hx].
Qed.

Lemma is_elf is64 h shs phs stridx f b : elf_file is64 h shs phs stridx f -> IsArchElfFile b f = Bool.eqb b is64.
Proof.
  intros (FH & FS & FP & (pad & a1 & a2 & a3 & a4 & a5 & a6 & PL & EH) & _).
  unfold IsArchElfFile.
  assert (A : at_offset f 0 ([127; 69; 76; 70; (if is64 then 2 else 1); 1] ++ pad)).
  { unfold enc_ehdr in EH. cbv zeta in EH. rewrite app_assoc in EH. apply at_app in EH. apply EH. }
  rewrite (pread_at _ _ _ 16 A) by (rewrite zlen_app', PL; reflexivity).
  cbn [app]. destruct is64, b; reflexivity.
Qed.

Lemma open_reads is64 h shs phs stridx f : elf_file is64 h shs phs stridx f ->
  exists el, open_elf f = Ok (Some el) /\ reads is64 h shs phs stridx el.
Proof.
  intros E. destruct (parse_reads _ _ _ _ _ _ E) as (el & P & R). exists el. split; [|exact R].
  unfold open_elf. rewrite !(is_elf _ _ _ _ _ _ _ E). destruct is64; cbn [Bool.eqb]; rewrite P; reflexivity.
Qed.

Lemma cstring_app n post : Forall (fun b => b <> 0) n -> cstring (n ++ 0 :: post) = Ok n.
Proof.
  induction n as [|b n IH]; intros F; [reflexivity|]. inversion F; subst. cbn [app cstring].
  destruct (Z.eqb_spec b 0); [contradiction|]. rewrite IH by assumption. reflexivity.
Qed.
Lemma string_at_is f pos n : string_is f pos n -> string_at f pos = Ok n.
Proof.
  intros (F & A). pose proof (at_nonneg _ _ _ A). unfold string_at.
  destruct (Z.ltb_spec pos 0); [lia|]. destruct A as (pre & post & -> & <-).
  unfold zlen. rewrite Nat2Z.id, skipn_app, skipn_all, Nat.sub_diag. cbn [app skipn].
  rewrite <- app_assoc. cbn [app]. apply cstring_app, F.
Qed.
