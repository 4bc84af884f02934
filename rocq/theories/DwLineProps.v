(** C60: the line tables of a binary (DWARF .debug_line, versions 2 to 4) give
    every address the source position its producer wrote down. *)
From Coq Require Import Sorted.
From Verif Require Import Base ByteModel ByteSpec DwLineModel DwLineSpec DwLineProofs DwLineLoop DwLineMap.

(** The buffers hold encoded units, each followed by anything. *)
Definition units_in (en : endian) (asz : Z) (us : list unit_) (bufs : list (list Z)) : Prop :=
  Forall2 (fun u buf => good_unit u /\ exists osz bs rest, encoded_unit en asz osz u bs /\ buf = bs ++ rest) us bufs.
Definition enough (fuel : nat) (bufs : list (list Z)) : Prop := Forall (fun buf => (3 * length buf + 2 <= fuel)%nat) bufs.

(** Reading one unit consumes exactly its bytes, whatever follows. *)
Theorem C60_consumed en asz osz wraps ls st u bs rest fuel : asz = 4 \/ asz = 8 -> good_unit u -> encoded_unit en asz osz u bs ->
  (3 * length bs + 2 <= fuel)%nat ->
  exists calls, Start en asz wraps ls st fuel (bs ++ rest) = Some (Ok (calls, zlen bs)).
Proof. intros ASZ (GP & SE & LD & LF & _) EU FU. exists (unit_calls u). apply (start_read en asz osz wraps ASZ ls st u bs rest fuel EU GP LD LF SE FU). Qed.

(** Whatever the rows are: an address gets the row with the greatest address at
    or before it, of several with this address the last one read. *)
Theorem C60_any en asz wraps ls st vaddr us bufs fuel rows : asz = 4 \/ asz = 8 -> units_in en asz us bufs -> enough fuel bufs ->
  rows = filter (fun r => vaddr <=? fst r) (concat (map unit_rows us)) ->
  exists m, read_units vaddr en asz wraps ls st fuel bufs linemap0 = Some (Ok m) /\
  forall x,
    (forall r, In r rows -> x < fst r) /\ lookup x m = Ok None \/
    exists R1 k v R2, rows = R1 ++ (k, v) :: R2 /\ k <= x /\ (forall r, In r rows -> fst r <= x -> fst r <= k) /\
      (forall r, In r R2 -> fst r <> k) /\ lookup x m = Ok (with_source v).
Proof.
  intros ASZ UI EN ->. exists (fold_left (add_row vaddr) (concat (map unit_rows us)) linemap0). split; [apply read_units_rows; assumption|]. intros x.
  pose proof (holds_all vaddr (concat (map unit_rows us)) [] linemap0 holds_nil) as HO. cbn [app] in HO. set (rows := filter _ _) in *.
  destruct (lookup_rows rows _ x HO) as [(A & B)|(k & v & A & B & C & D)].
  - left. split; [|exact B]. intros r Hr. apply A. apply in_map. exact Hr.
  - right. destruct (last_write_some _ _ _ C) as (R1 & R2 & E & N). exists R1, k, v, R2. split; [exact E|]. split; [exact A|]. split; [intros r Hr; apply B; apply in_map; exact Hr|]. split; [|exact D]. intros r Hr Q. apply N. rewrite <- Q. apply in_map. exact Hr.
Qed.

(** Rows always come in sequences. *)
Lemma rows_split (rows : list (Z * option (list Z * list Z * Z * Z))) : (rows = [] \/ exists l a, rows = l ++ [(a, None)]) -> exists seqs, rows = concat (map rows_of seqs).
Proof.
  remember (length rows) as n eqn:EN. revert rows EN. induction n as [n IH] using lt_wf_ind. intros rows EN [->|(l & a & ->)]; [exists []; reflexivity|]. clear n EN IH.
  revert a. induction l as [|x l IHl] using rev_ind; intros a; [exists [([], a)]; reflexivity|].
  assert (G : forall l' acc b, exists seqs, l' ++ map (fun r : Z * (list Z * list Z * Z * Z) => (fst r, Some (snd r))) acc ++ [(b, @None (list Z * list Z * Z * Z))] = concat (map rows_of seqs)).
  { clear. induction l' as [|[k v] l' IH] using rev_ind; intros acc b; [exists [(acc, b)]; cbn [map concat]; rewrite app_nil_r; reflexivity|]. destruct v as [p|].
    - destruct (IH ((k, p) :: acc) b) as (seqs & E). exists seqs. rewrite <- E, <- app_assoc. reflexivity.
    - destruct (IH [] k) as (seqs & E). exists (seqs ++ [(acc, b)]). rewrite map_app, concat_app, <- E. cbn [map concat app]. rewrite app_nil_r. reflexivity. }
  exact (G (l ++ [x]) [] a).
Qed.
Lemma resolve_app l : forall D F l2, exists F', resolve D F (l ++ l2) = resolve D F l ++ resolve D F' l2.
Proof.
  induction l as [|[r|r|n d m len] l IH]; intros D F l2; cbn [app resolve]; [exists F; reflexivity| | |].
  - destruct (IH D F l2) as (F' & ->). exists F'. reflexivity.
  - destruct (IH D F l2) as (F' & ->). exists F'. reflexivity.
  - apply IH.
Qed.
Lemma run_app P l : forall r l2, exists r', run_program P (l ++ l2) r = run_program P l r ++ run_program P l2 r'.
Proof. induction l as [|i l IH]; intros r l2; cbn [app run_program]; [exists r; reflexivity|]. destruct (IH (fst (step P i r)) l2) as (r' & ->). exists r'. rewrite app_assoc. reflexivity. Qed.
Theorem C60_sequences u : good_unit u -> exists seqs, unit_rows u = concat (map rows_of seqs).
Proof.
  intros (_ & SE & _). apply rows_split. unfold unit_rows. destruct SE as [->|(l & ->)]; [left; reflexivity|]. right. destruct (run_app (u_params u) l regs0 [EndSequence]) as (r & ->). cbn [run_program step fst snd app]. destruct (resolve_app (run_program (u_params u) l regs0) (u_dirs u) (map name_dir (u_files u)) [End r]) as (F' & ->). eexists. exists (r_address r). reflexivity.
Qed.

(** Sequences that do not overlap and of which none ends where one begins that was
    read before it: an address inside one gets the row of this sequence, an address
    outside of all gets none.  Sequences below the first load segment (functions
    the linker has discarded) count as absent. *)
Theorem C60_lookup en asz wraps ls st vaddr us bufs fuel seqs : asz = 4 \/ asz = 8 -> units_in en asz us bufs -> enough fuel bufs ->
  concat (map unit_rows us) = concat (map rows_of seqs) ->
  Forall (fun s => (forall r, In r (rows_of s) -> vaddr <= fst r) \/ (forall r, In r (rows_of s) -> fst r < vaddr)) seqs ->
  let kept := filter (fun s => vaddr <=? snd s) seqs in
  Forall good_sequence kept -> all_apart kept -> no_late_end kept ->
  exists m, read_units vaddr en asz wraps ls st fuel bufs linemap0 = Some (Ok m) /\
    (forall s x, In s kept -> in_sequence s x -> lookup x m = Ok (with_source (row_at (fst s) x))) /\
    (forall x, (forall s, In s kept -> ~ in_sequence s x) -> lookup x m = Ok None).
Proof.
  intros ASZ UI EN ER SIDE kept GS AP NL. exists (fold_left (add_row vaddr) (concat (map unit_rows us)) linemap0). split; [apply read_units_rows; assumption|].
  apply lookup_sequences; [|exact GS|exact AP|exact NL].
  pose proof (holds_all vaddr (concat (map unit_rows us)) [] linemap0 holds_nil) as HO. cbn [app] in HO.
  assert (FE : filter (fun r : Z * option (list Z * list Z * Z * Z) => vaddr <=? fst r) (concat (map unit_rows us)) = concat (map rows_of kept)); [|rewrite FE in HO; exact HO].
  rewrite ER. clear - SIDE. subst kept. induction seqs as [|s seqs IH]; [reflexivity|]. inversion SIDE as [|? ? S1 S2]; subst. cbn [map concat filter]. rewrite filter_app, (IH S2).
  assert (EIN : In (snd s, None) (rows_of s)) by (apply in_or_app; right; left; reflexivity).
  destruct S1 as [A|A]; pose proof (A _ EIN) as Q; cbn [fst] in Q.
  - destruct (Z.leb_spec vaddr (snd s)); [|lia]. cbn [map concat]. f_equal. clear - A. induction (rows_of s) as [|r l IH]; [reflexivity|]. cbn [filter]. pose proof (A r (or_introl eq_refl)). destruct (Z.leb_spec vaddr (fst r)); [|lia]. f_equal. apply IH. intros r' Hr'. apply A. right. exact Hr'.
  - destruct (Z.leb_spec vaddr (snd s)); [lia|]. cbn [map concat]. clear - A. induction (rows_of s) as [|r l IH]; [reflexivity|]. cbn [filter]. pose proof (A r (or_introl eq_refl)). destruct (Z.leb_spec vaddr (fst r)); [lia|]. apply IH. intros r' Hr'. apply A. right. exact Hr'.
Qed.

(** *** A concrete case *)
(** min 1, line base -5, line range 14, opcode base 13 *)
Definition P0 : params := {| p_min := 1; p_line_base := -5; p_line_range := 14; p_opcode_base := 13; p_lengths := [0;1;1;1;1;0;0;0;1;0;0;1] |}.
(** directory "d"; files "a" (directory 1), "b" (directory 0); two functions, at
    4096 and at 4112 *)
Definition prog0 (a1 a2 : Z) : list instr :=
  [SetAddress a1; AdvanceLine 9; Copy; SetDiscriminator 3; Special 76; AdvancePc 4; EndSequence;
   SetAddress a2; SetFile 2; Special 19; ConstAddPc; AdvanceLine (-2); Copy; FixedAdvancePc 300; EndSequence].
Definition addr8 (a : Z) : list Z := [a mod 256; a / 256; 0; 0; 0; 0; 0; 0].
Definition prog0_bytes (a1 a2 : Z) : list Z :=
  [0; 9; 2] ++ addr8 a1 ++ [3; 9; 1; 0; 2; 4; 3; 76; 2; 4; 0; 1; 1] ++ [0; 9; 2] ++ addr8 a2 ++ [4; 2; 19; 8; 3; 126; 1; 9; 44; 1; 0; 1; 1].
Definition unit0 (a1 a2 : Z) : unit_ := {| u_version := 4; u_params := P0; u_stmt := true; u_dirs := [[100]]; u_files := [([97], 1, 0, 0); ([98], 0, 0, 0)]; u_program := prog0 a1 a2 |}.
Definition tail0 : list Z := [1; 1; 1; 251; 14; 13; 0;1;1;1;1;0;0;0;1;0;0;1] ++ [100; 0; 0] ++ [97; 0; 1; 0; 0; 98; 0; 0; 0; 0; 0].
Definition unit0_bytes (a1 a2 : Z) : list Z := [86; 0; 0; 0] ++ [4; 0] ++ [32; 0; 0; 0] ++ tail0 ++ prog0_bytes a1 a2.
Ltac byte_list := repeat (constructor; [unfold is_byte; lia|]); try constructor.
Lemma enc_one i b l bs : encoded LittleEndian 8 P0 i b -> encoded_program LittleEndian 8 P0 l bs -> encoded_program LittleEndian 8 P0 (i :: l) (b ++ bs).
Proof. constructor; assumption. Qed.
Ltac leb := split; [repeat constructor; unfold is_byte; lia|split; [unfold zlen; cbn; lia|split; [reflexivity|]]].
Lemma enc_address a : 0 <= a < 65536 -> encoded LittleEndian 8 P0 (SetAddress a) ([0; 9; 2] ++ addr8 a).
Proof.
  intros A. change ([0; 9; 2] ++ addr8 a) with (0 :: [9] ++ 2 :: addr8 a). apply e_ext; [|leb; cbn; lia|cbn; lia].
  apply x_address. split; [reflexivity|]. split; [|unfold value_of, addr8; cbn [le_value]; pose proof (Z.div_mod a 256); lia].
  unfold addr8. constructor; [unfold is_byte; pose proof (Z.mod_pos_bound a 256); lia|]. constructor; [unfold is_byte; pose proof (Z.div_lt_upper_bound a 256 256); pose proof (Z.div_pos a 256); lia|]. byte_list.
Qed.
Lemma enc_end : encoded LittleEndian 8 P0 EndSequence [0; 1; 1].
Proof. change [0; 1; 1] with (0 :: [1] ++ [1]). apply e_ext; [constructor|leb; cbn; lia|cbn; lia]. Qed.
Lemma enc_prog0 a1 a2 : 0 <= a1 < 65536 -> 0 <= a2 < 65536 -> encoded_program LittleEndian 8 P0 (prog0 a1 a2) (prog0_bytes a1 a2).
Proof.
  intros A1 A2. unfold prog0, prog0_bytes.
  change ([0; 9; 2] ++ addr8 a1 ++ [3; 9; 1; 0; 2; 4; 3; 76; 2; 4; 0; 1; 1] ++ [0; 9; 2] ++ addr8 a2 ++ [4; 2; 19; 8; 3; 126; 1; 9; 44; 1; 0; 1; 1])
    with (([0; 9; 2] ++ addr8 a1) ++ [3; 9] ++ [1] ++ [0; 2; 4; 3] ++ [76] ++ [2; 4] ++ [0; 1; 1] ++ ([0; 9; 2] ++ addr8 a2) ++ [4; 2] ++ [19] ++ [8] ++ [3; 126] ++ [1] ++ [9; 44; 1] ++ [0; 1; 1] ++ []).
  apply enc_one; [apply enc_address; exact A1|].
  apply enc_one; [apply e_line; [cbn; lia|leb; split; [lia|left; cbn; lia]]|].
  apply enc_one; [apply e_copy; cbn; lia|].
  apply enc_one; [change [0; 2; 4; 3] with (0 :: [2] ++ 4 :: [3]); apply e_ext; [apply x_disc; leb; lia|leb; cbn; lia|cbn; lia]|].
  apply enc_one; [apply e_special; cbn; lia|].
  apply enc_one; [apply e_pc; [cbn; lia|leb; lia]|].
  apply enc_one; [apply enc_end|].
  apply enc_one; [apply enc_address; exact A2|].
  apply enc_one; [apply e_file; [cbn; lia|leb; lia]|].
  apply enc_one; [apply e_special; cbn; lia|].
  apply enc_one; [apply e_const; cbn; lia|].
  apply enc_one; [apply e_line; [cbn; lia|leb; split; [lia|left; cbn; lia]]|].
  apply enc_one; [apply e_copy; cbn; lia|].
  apply enc_one; [apply e_fixed; [cbn; lia|split; [reflexivity|split; [byte_list|reflexivity]]]|].
  apply enc_one; [apply enc_end|]. constructor.
Qed.
Lemma enc_unit0 a1 a2 : 0 <= a1 < 65536 -> 0 <= a2 < 65536 -> encoded_unit LittleEndian 8 4 (unit0 a1 a2) (unit0_bytes a1 a2).
Proof.
  intros A1 A2. unfold unit0_bytes. eapply (eu LittleEndian 8 4 (unit0 a1 a2) [86; 0; 0; 0] [4; 0] [32; 0; 0; 0] [1] 1 251 tail0 [100; 0; 0] [97; 0; 1; 0; 0; 98; 0; 0; 0; 0; 0] (prog0_bytes a1 a2)).
  - cbn; lia.
  - split; [reflexivity|split; [byte_list|reflexivity]].
  - exists 1. split; [reflexivity|unfold is_byte; lia].
  - unfold is_byte; lia.
  - reflexivity.
  - split; [unfold is_byte; lia|reflexivity].
  - change [100; 0; 0] with ([100] ++ 0 :: [0]). constructor; [discriminate|byte_list|constructor].
  - change [97; 0; 1; 0; 0; 98; 0; 0; 0; 0; 0] with ([97] ++ 0 :: [1] ++ [0] ++ [0] ++ ([98] ++ 0 :: [0] ++ [0] ++ [0] ++ [0])).
    assert (U0 : uleb_of 0 [0]) by (leb; lia). assert (U1 : uleb_of 1 [1]) by (leb; lia).
    constructor; [discriminate|constructor; [split; [unfold is_byte; lia|lia]|constructor]|exact U1|exact U0|exact U0|].
    constructor; [discriminate|constructor; [split; [unfold is_byte; lia|lia]|constructor]|exact U0|exact U0|exact U0|constructor].
  - exact (enc_prog0 a1 a2 A1 A2).
  - reflexivity.
  - split; [reflexivity|split; [byte_list|reflexivity]].
  - left. split; [reflexivity|]. split; [cbn; lia|]. split; [reflexivity|split; [byte_list|reflexivity]].
Qed.
Lemma good_unit0 a1 a2 : good_unit (unit0 a1 a2).
Proof.
  unfold good_unit. cbn [u_params u_program u_dirs u_files unit0]. split; [|split; [|split; [|split; [|split]]]].
  - unfold good_params. cbn [p_min p_line_base p_line_range p_opcode_base p_lengths P0]. split; [lia|]. split; [lia|]. split; [lia|]. split; [lia|]. split; [reflexivity|]. byte_list.
  - right. exists (removelast (prog0 a1 a2)). reflexivity.
  - cbn. lia.
  - cbn. lia.
  - constructor; [cbn; lia|]. constructor; [cbn; lia|]. constructor.
  - cbn. lia.
Qed.
Definition seqs0 : list (list (Z * (list Z * list Z * Z * Z)) * Z) :=
  [([(4096, ([100], [97], 10, 0)); (4100, ([100], [97], 12, 3))], 4104);
   ([(4112, ([], [98], 2, 0)); (4129, ([], [98], 0, 0))], 4429)].
Example C60_nonvacuous :
  units_in LittleEndian 8 [unit0 4096 4112] [unit0_bytes 4096 4112 ++ [1; 2; 3]] /\
  enough 500 [unit0_bytes 4096 4112 ++ [1; 2; 3]] /\
  concat (map unit_rows [unit0 4096 4112]) = concat (map rows_of seqs0) /\
  Forall (fun s => (forall r, In r (rows_of s) -> 4096 <= fst r) \/ (forall r, In r (rows_of s) -> fst r < 4096)) seqs0 /\
  filter (fun s => 4096 <=? snd s) seqs0 = seqs0 /\ Forall good_sequence seqs0 /\ all_apart seqs0 /\ no_late_end seqs0 /\
  (exists m, read_units 4096 LittleEndian 8 false None None 500 [unit0_bytes 4096 4112 ++ [1; 2; 3]] linemap0 = Some (Ok m) /\
     lookup 4095 m = Ok None /\ lookup 4099 m = Ok (Some ([100], [97], 10, 0)) /\ lookup 4103 m = Ok (Some ([100], [97], 12, 3)) /\
     lookup 4105 m = Ok None /\ lookup 4128 m = Ok (Some ([], [98], 2, 0)) /\ lookup 4200 m = Ok None).
Proof.
  split; [constructor; [split; [apply good_unit0|exists 4, (unit0_bytes 4096 4112), [1; 2; 3]; split; [apply enc_unit0; lia|reflexivity]]|constructor]|].
  split; [constructor; [vm_compute; lia|constructor]|]. split; [vm_compute; reflexivity|].
  split; [constructor; [|constructor; [|constructor]]; left; intros r Hr; cbn in Hr; repeat destruct Hr as [<-|Hr]; cbn; try lia; destruct Hr|].
  split; [vm_compute; reflexivity|].
  split; [repeat constructor; cbn; lia|]. split; [split; [constructor; [left; cbn; lia|constructor]|split; [constructor|exact Logic.I]]|]. split; [split; [constructor; [cbn; lia|constructor]|split; [constructor|exact Logic.I]]|].
  eexists. split; [vm_compute; reflexivity|]. repeat (split; [vm_compute; reflexivity|]). vm_compute; reflexivity.
Qed.

(** *** Limits *)
(** Finding.  A sequence that ends where another one begins: the order of reading
    decides.  Here 4404-4412 is read first, then 4087-4404, whose end
    replaces the first row of the former: 4404 to 4407 have no source any more,
    although a row covers them. *)
Definition late_seqs : list (list (Z * (list Z * list Z * Z * Z)) * Z) :=
  [([(4404, ([100], [97], 10, 0)); (4408, ([100], [97], 12, 3))], 4412);
   ([(4087, ([], [98], 2, 0)); (4104, ([], [98], 0, 0))], 4404)].
Theorem C60_late_end_refuted : exists en asz us bufs fuel seqs s x m,
  units_in en asz us bufs /\ enough fuel bufs /\ concat (map unit_rows us) = concat (map rows_of seqs) /\
  Forall good_sequence seqs /\ all_apart seqs /\ (forall r, In r (concat (map unit_rows us)) -> 0 <= fst r) /\
  In s seqs /\ in_sequence s x /\ (exists p, with_source (row_at (fst s) x) = Some p) /\
  read_units 0 en asz false None None fuel bufs linemap0 = Some (Ok m) /\ lookup x m = Ok None.
Proof.
  exists LittleEndian, 8, [unit0 4404 4087], [unit0_bytes 4404 4087], 500%nat, late_seqs, (hd ([], 0) late_seqs), 4404. eexists.
  split; [constructor; [split; [apply good_unit0|exists 4, (unit0_bytes 4404 4087), []; split; [apply enc_unit0; lia|rewrite app_nil_r; reflexivity]]|constructor]|].
  split; [constructor; [vm_compute; lia|constructor]|]. split; [vm_compute; reflexivity|].
  split; [repeat constructor; cbn; lia|]. split; [split; [constructor; [right; cbn; lia|constructor]|split; [constructor|exact Logic.I]]|].
  split; [intros r Hr; vm_compute in Hr; repeat destruct Hr as [<-|Hr]; cbn; try lia; destruct Hr|].
  split; [left; reflexivity|]. split; [unfold in_sequence; cbn; lia|]. split; [eexists; vm_compute; reflexivity|].
  split; vm_compute; reflexivity.
Qed.
(** Finding.  Version 5 numbers directories and files from 0, the reader from 1:
    a row of file 1 gets the name of entry 0.  Directories "/c", "/i"; files
    "m" (directory 0) and "h" (directory 1); one row of file 1, i.e. of "/i", "h". *)
Definition v5_bytes : list Z :=
  [65; 0; 0; 0] ++ [5; 0] ++ [8; 0] ++ [40; 0; 0; 0] ++ [1; 1; 1; 251; 14; 13; 0;1;1;1;1;0;0;0;1;0;0;1] ++
  [1; 1; 8; 2; 47; 99; 0; 47; 105; 0] ++ [2; 1; 8; 2; 11; 2; 109; 0; 0; 104; 0; 1] ++
  [0; 9; 2; 0; 16; 0; 0; 0; 0; 0; 0] ++ [1] ++ [2; 4] ++ [0; 1; 1].
Theorem C60_version5_refuted : exists m, read_units 0 LittleEndian 8 false None None 500 [v5_bytes] linemap0 = Some (Ok m) /\
  lookup 4096 m = Ok (Some ([], [109], 1, 0)).
Proof. eexists. split; vm_compute; reflexivity. Qed.
(** Finding.  An extended opcode whose length makes 1 + length + 10 wrap to 0: the
    reader never gets past it. *)
Definition hang_bytes : list Z := [40; 0; 0; 0] ++ [2; 0] ++ [19; 0; 0; 0] ++ [1; 1; 251; 14; 13; 0;1;1;1;1;0;0;0;1;0;0;1] ++ [0; 0] ++ [0; 245; 255; 255; 255; 255; 255; 255; 255; 255; 1; 128; 0; 0; 0].
Lemma hang_loop h fuel buf pos stop s : end_sequence s = false -> ProcessOneOpcode LittleEndian 8 false h (from pos buf) s = Ok (false, s, 0, []) ->
  read_lines LittleEndian 8 false h fuel buf pos stop (Some s) [] = None.
Proof. intros ES PO. induction fuel as [|k IH]; [reflexivity|]. cbn [read_lines]. rewrite ES, PO. cbn [app]. rewrite Z.add_0_r. exact IH. Qed.
Theorem C60_endless_refuted : Forall is_byte hang_bytes /\ forall fuel, read_units 0 LittleEndian 8 false None None fuel [hang_bytes] linemap0 = None.
Proof.
  split; [unfold hang_bytes; cbn [app]; byte_list|]. intros fuel. cbn [read_units]. assert (SN : Start LittleEndian 8 false None None fuel hang_bytes = None); [|rewrite SN; reflexivity].
  unfold Start. destruct (ReadHeader LittleEndian 8 None None hang_bytes) as [[[[[h e] p] stop]|]| |] eqn:RH; vm_compute in RH; try discriminate RH. injection RH as <- <- <- <-.
  match goal with |- context [read_lines ?a ?b ?c ?h ?f ?bf ?po ?st None []] => assert (RN : read_lines a b c h f bf po st None [] = None) end; [|rewrite RN; reflexivity].
  destruct fuel as [|k]; [reflexivity|]. cbn [read_lines]. match goal with |- (if ?b then _ else _) = _ => change b with true end. cbv iota. apply hang_loop; vm_compute; reflexivity.
Qed.

Print Assumptions C60_consumed.
Print Assumptions C60_any.
Print Assumptions C60_sequences.
Print Assumptions C60_lookup.
Print Assumptions C60_late_end_refuted.
Print Assumptions C60_version5_refuted.
Print Assumptions C60_endless_refuted.
