(** Line number programs as the DWARF standard describes them (section 6.2), for
    machines with one operation per instruction, and looking up an address. *)
From Coq Require Import Sorted.
From Verif Require Import Base ByteModel ByteSpec.

(** *** Instructions and registers *)
Inductive instr :=
| Special (opcode : Z)
| Copy | AdvancePc (n : Z) | AdvanceLine (n : Z) | SetFile (n : Z) | SetColumn (n : Z) | NegateStmt | SetBasicBlock
| ConstAddPc | FixedAdvancePc (n : Z)
| OtherStandard (opcode : Z)
| EndSequence | SetAddress (a : Z) | DefineFile (name : list Z) (dir mtime len : Z) | SetDiscriminator (n : Z)
| OtherExtended (opcode : Z).

(** What the header says about the program. *)
Record params := { p_min : Z; p_line_base : Z; p_line_range : Z; p_opcode_base : Z; p_lengths : list Z }.

(** The registers that rows show: 64 bits of address, 32 bits of the others. *)
Record regs := { r_address : Z; r_file : Z; r_line : Z; r_column : Z; r_disc : Z }.
Definition regs0 : regs := {| r_address := 0; r_file := 1; r_line := 1; r_column := 0; r_disc := 0 |}.
Definition advance (da dl : Z) (r : regs) : regs :=
  {| r_address := (r_address r + da) mod 2 ^ 64; r_file := r_file r; r_line := (r_line r + dl) mod 2 ^ 32; r_column := r_column r; r_disc := r_disc r |}.

(** What a program produces: rows, the ends of sequences, further files. *)
Inductive item := Row (r : regs) | End (r : regs) | File (name : list Z) (dir mtime len : Z).

(** 6.2.5.1 *)
Definition special_address (P : params) (op : Z) : Z := p_min P * ((op - p_opcode_base P) / p_line_range P).
Definition special_line (P : params) (op : Z) : Z := p_line_base P + (op - p_opcode_base P) mod p_line_range P.
Definition no_disc (r : regs) : regs :=
  {| r_address := r_address r; r_file := r_file r; r_line := r_line r; r_column := r_column r; r_disc := 0 |}.
(** 6.2.5.2, 6.2.5.3 *)
Definition step (P : params) (i : instr) (r : regs) : regs * list item :=
  match i with
  | Special op => let r := advance (special_address P op) (special_line P op) r in (no_disc r, [Row r])
  | Copy => (no_disc r, [Row r])
  | AdvancePc n => (advance (p_min P * n) 0 r, [])
  | AdvanceLine n => (advance 0 n r, [])
  | SetFile n => ({| r_address := r_address r; r_file := n mod 2 ^ 32; r_line := r_line r; r_column := r_column r; r_disc := r_disc r |}, [])
  | SetColumn n => ({| r_address := r_address r; r_file := r_file r; r_line := r_line r; r_column := n mod 2 ^ 32; r_disc := r_disc r |}, [])
  | ConstAddPc => (advance (special_address P 255) 0 r, [])
  | FixedAdvancePc n => (advance n 0 r, [])
  | SetAddress a => ({| r_address := a; r_file := r_file r; r_line := r_line r; r_column := r_column r; r_disc := r_disc r |}, [])
  | SetDiscriminator n => ({| r_address := r_address r; r_file := r_file r; r_line := r_line r; r_column := r_column r; r_disc := n mod 2 ^ 32 |}, [])
  | DefineFile name dir mtime len => (r, [File name dir mtime len])
  | EndSequence => (regs0, [End r])
  | NegateStmt | SetBasicBlock | OtherStandard _ | OtherExtended _ => (r, [])
  end.
Fixpoint run_program (P : params) (l : list instr) (r : regs) : list item :=
  match l with [] => [] | i :: l' => snd (step P i r) ++ run_program P l' (fst (step P i r)) end.
(** Every sequence is ended. *)
Definition sequences_end (l : list instr) : Prop := l = [] \/ exists l', l = l' ++ [EndSequence].

(** *** Encoding *)
Definition value_of (en : endian) (bs : list Z) : Z := match en with LittleEndian => le_value bs | BigEndian => be_value bs end.
Definition fixed_of (en : endian) (n v : Z) (bs : list Z) : Prop := zlen bs = n /\ Forall is_byte bs /\ value_of en bs = v.
(** at most ten bytes of LEB128; C23 says what happens with more and with nine
    bytes of a negative number *)
Definition uleb_of (v : Z) (bs : list Z) : Prop := leb_shape bs /\ zlen bs <= 10 /\ leb_bits bs = v /\ v < 2 ^ 64.
Definition sleb_of (v : Z) (bs : list Z) : Prop :=
  leb_shape bs /\ zlen bs <= 10 /\ leb_signed bs = v /\ - 2 ^ 63 <= v < 2 ^ 63 /\ (zlen bs <> 9 \/ 0 <= v).
Definition is_name (s : list Z) : Prop := Forall (fun b => is_byte b /\ b <> 0) s.

Section Encode.
Context (en : endian) (address_size : Z) (P : params).
Inductive encoded_ext : instr -> list Z -> Prop :=
| x_end : encoded_ext EndSequence [1]
| x_address a bs : fixed_of en address_size a bs -> encoded_ext (SetAddress a) (2 :: bs)
| x_file name d m n b1 b2 b3 : is_name name -> uleb_of d b1 -> uleb_of m b2 -> uleb_of n b3 ->
    encoded_ext (DefineFile name d m n) (3 :: name ++ 0 :: b1 ++ b2 ++ b3)
| x_disc n bs : uleb_of n bs -> encoded_ext (SetDiscriminator n) (4 :: bs)
| x_other op bs : is_byte op -> ~ In op [1; 2; 3; 4] -> Forall is_byte bs -> encoded_ext (OtherExtended op) (op :: bs).
Inductive encoded : instr -> list Z -> Prop :=
| e_special op : p_opcode_base P <= op < 256 -> encoded (Special op) [op]
| e_copy : 1 < p_opcode_base P -> encoded Copy [1]
| e_pc n bs : 2 < p_opcode_base P -> uleb_of n bs -> encoded (AdvancePc n) (2 :: bs)
| e_line n bs : 3 < p_opcode_base P -> sleb_of n bs -> encoded (AdvanceLine n) (3 :: bs)
| e_file n bs : 4 < p_opcode_base P -> uleb_of n bs -> encoded (SetFile n) (4 :: bs)
| e_column n bs : 5 < p_opcode_base P -> uleb_of n bs -> encoded (SetColumn n) (5 :: bs)
| e_stmt : 6 < p_opcode_base P -> encoded NegateStmt [6]
| e_bb : 7 < p_opcode_base P -> encoded SetBasicBlock [7]
| e_const : 8 < p_opcode_base P -> encoded ConstAddPc [8]
| e_fixed n bs : 9 < p_opcode_base P -> fixed_of en 2 n bs -> encoded (FixedAdvancePc n) (9 :: bs)
(** opcodes 10 to 12 and unknown ones: skipped, with the operands the header
    announces (13 to 15 are the experimental two-level opcodes) *)
| e_other op operands : 10 <= op < p_opcode_base P -> ~ In op [13; 14; 15] ->
    zlen operands = nth (Z.to_nat (op - 1)) (p_lengths P) 0 -> Forall (fun bs => exists v, uleb_of v bs) operands ->
    encoded (OtherStandard op) (op :: concat operands)
| e_ext i body n : encoded_ext i body -> uleb_of (zlen body) n -> zlen body < 2 ^ 63 -> encoded i (0 :: n ++ body).
Inductive encoded_program : list instr -> list Z -> Prop :=
| ep_nil : encoded_program [] []
| ep_cons i l b bs : encoded i b -> encoded_program l bs -> encoded_program (i :: l) (b ++ bs).
End Encode.
Definition good_params (P : params) : Prop :=
  0 <= p_min P < 256 /\ -128 <= p_line_base P < 128 /\ 0 < p_line_range P < 256 /\ 0 < p_opcode_base P < 256 /\
  zlen (p_lengths P) = p_opcode_base P - 1 /\ Forall is_byte (p_lengths P).

(** *** Units *)
(** Directories and files as the header lists them (files: name, directory,
    time, length). *)
Record unit_ := { u_version : Z; u_params : params; u_stmt : bool; u_dirs : list (list Z); u_files : list (list Z * Z * Z * Z); u_program : list instr }.

(** A place: directory, file, line, discriminator. *)
Notation place := (list Z * list Z * Z * Z)%type (only parsing).
(** Files and directories are numbered from 1; directory 0 is the directory of
    the compilation, here written as the empty name (versions 2 to 4). *)
Definition dir_name (dirs : list (list Z)) (d : Z) : list Z := if d =? 0 then [] else nth (Z.to_nat (d - 1)) dirs [].
Definition place_of (dirs : list (list Z)) (files : list (list Z * Z)) (r : regs) : place :=
  let '(name, d) := nth (Z.to_nat (r_file r - 1)) files ([], 0) in (dir_name dirs d, name, r_line r, r_disc r).
(** Rows with the file names they refer to; None ends a sequence. *)
Fixpoint resolve (dirs : list (list Z)) (files : list (list Z * Z)) (l : list item) : list (Z * option place) :=
  match l with
  | [] => []
  | Row r :: l' => (r_address r, Some (place_of dirs files r)) :: resolve dirs files l'
  | End r :: l' => (r_address r, None) :: resolve dirs files l'
  | File name d _ _ :: l' => resolve dirs (files ++ [(name, d)]) l'
  end.
Definition name_dir (f : list Z * Z * Z * Z) : list Z * Z := (fst (fst (fst f)), snd (fst (fst f))).
Definition unit_rows (u : unit_) : list (Z * option place) :=
  resolve (u_dirs u) (map name_dir (u_files u)) (run_program (u_params u) (u_program u) regs0).
(** All numbers of files and directories exist. *)
Fixpoint files_exist (ndirs nfiles : Z) (l : list item) : Prop :=
  match l with
  | [] => True
  | Row r :: l' => 1 <= r_file r <= nfiles /\ files_exist ndirs nfiles l'
  | End _ :: l' => files_exist ndirs nfiles l'
  | File _ d _ _ :: l' => 0 <= d <= ndirs /\ files_exist ndirs (nfiles + 1) l'
  end.
Definition good_unit (u : unit_) : Prop :=
  good_params (u_params u) /\ sequences_end (u_program u) /\ zlen (u_dirs u) < 2 ^ 31 /\ zlen (u_files u) < 2 ^ 31 - 1 /\
  Forall (fun f => 0 <= snd (name_dir f) <= zlen (u_dirs u)) (u_files u) /\
  files_exist (zlen (u_dirs u)) (zlen (u_files u)) (run_program (u_params u) (u_program u) regs0).

(** Versions 2 to 4 (6.2.4): [osz] is the size of an offset. *)
Section EncodeUnit.
Context (en : endian) (address_size osz : Z).
Definition initial_length (n : Z) (bs : list Z) : Prop :=
  (osz = 4 /\ n < 2 ^ 32 - 1 /\ fixed_of en 4 n bs) \/ (osz = 8 /\ exists b, bs = [255; 255; 255; 255] ++ b /\ fixed_of en 8 n b).
Definition signed_byte (v b : Z) : Prop := is_byte b /\ v = if b <? 128 then b else b - 256.
Inductive encoded_dirs : list (list Z) -> list Z -> Prop :=
| d_nil : encoded_dirs [] [0]
| d_cons s l bs : s <> [] -> is_name s -> encoded_dirs l bs -> encoded_dirs (s :: l) (s ++ 0 :: bs).
Inductive encoded_files : list (list Z * Z * Z * Z) -> list Z -> Prop :=
| f_nil : encoded_files [] [0]
| f_cons s d m n b1 b2 b3 l bs : s <> [] -> is_name s -> uleb_of d b1 -> uleb_of m b2 -> uleb_of n b3 -> encoded_files l bs ->
    encoded_files ((s, d, m, n) :: l) (s ++ 0 :: b1 ++ b2 ++ b3 ++ bs).
Inductive encoded_unit (u : unit_) : list Z -> Prop :=
| eu il ver hl mx st lb tail dirs_ files_ prog :
    2 <= u_version u <= 4 -> fixed_of en 2 (u_version u) ver ->
    (if 4 <=? u_version u then exists m, mx = [m] /\ is_byte m else mx = []) ->
    is_byte st -> (u_stmt u = negb (st =? 0)) -> signed_byte (p_line_base (u_params u)) lb ->
    encoded_dirs (u_dirs u) dirs_ -> encoded_files (u_files u) files_ -> encoded_program en address_size (u_params u) (u_program u) prog ->
    tail = [p_min (u_params u)] ++ mx ++ [st; lb; p_line_range (u_params u); p_opcode_base (u_params u)] ++ p_lengths (u_params u) ++ dirs_ ++ files_ ->
    fixed_of en osz (zlen tail) hl -> initial_length (2 + osz + zlen tail + zlen prog) il ->
    encoded_unit u (il ++ ver ++ hl ++ tail ++ prog).
End EncodeUnit.

(** *** Looking up an address *)
(** The rows as sequences: rows in order of their addresses, then the end. *)
Definition sequence := (list (Z * place) * Z)%type.
Definition rows_of (s : sequence) : list (Z * option place) := map (fun r => (fst r, Some (snd r))) (fst s) ++ [(snd s, None)].
Definition first_address (s : sequence) : Z := match fst s with [] => snd s | r :: _ => fst r end.
Definition in_sequence (s : sequence) (x : Z) : Prop := first_address s <= x < snd s.
Definition good_sequence (s : sequence) : Prop :=
  Forall (fun r => 0 <= fst r <= snd s) (fst s) /\ StronglySorted (fun r r' => fst r <= fst r') (fst s) /\ first_address s < snd s.
(** Sequences do not overlap. *)
Definition apart (s t : sequence) : Prop := snd s <= first_address t \/ snd t <= first_address s.
Fixpoint all_apart (l : list sequence) : Prop := match l with [] => True | s :: l' => Forall (apart s) l' /\ all_apart l' end.
(** No sequence ends where one begins that was read before it. *)
Fixpoint no_late_end (l : list sequence) : Prop :=
  match l with [] => True | s :: l' => Forall (fun t => snd t <> first_address s) l' /\ no_late_end l' end.
(** The row for an address: the last one at or before it. *)
Fixpoint row_at (l : list (Z * place)) (x : Z) : option place :=
  match l with
  | [] => None
  | (a, p) :: l' => match row_at l' x with Some q => Some q | None => if a <=? x then Some p else None end
  end.
(** Line 0 means that there is no source. *)
Definition with_source (p : option place) : option place :=
  match p with Some (d, f, line, disc) => if line =? 0 then None else p | None => None end.
