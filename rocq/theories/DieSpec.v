(** How DWARF writes debugging entries (DWARF 5, section 7.5 and 7.26), and what a reader that
    calls a handler has to do with them. *)
From Verif Require Import Base ByteSpec ByteModel DieModel.

(** *** Numbers *)
Definition num_of (en : endian) (bs : list Z) : Z := match en with LittleEndian => le_value bs | BigEndian => be_value bs end.
Definition fixed (en : endian) (n : Z) (bs : list Z) (v : Z) : Prop := zlen bs = n /\ Forall is_byte bs /\ num_of en bs = v.
(** at most ten bytes, canonical or padded *)
Definition uleb (bs : list Z) (v : Z) : Prop := leb_shape bs /\ zlen bs <= 10 /\ leb_bits bs = v /\ v < 2 ^ 64.
Definition sleb (bs : list Z) (v : Z) : Prop := leb_shape bs /\ zlen bs <= 10 /\ leb_signed bs = v /\ - 2 ^ 63 <= v < 2 ^ 63.
(** the length field, and the size of offsets that goes with it *)
Definition initial_length (en : endian) (bs : list Z) (osz len : Z) : Prop :=
  (osz = 4 /\ fixed en 4 bs len /\ len < 2 ^ 32 - 1) \/ (osz = 8 /\ exists l8, bs = [255; 255; 255; 255] ++ l8 /\ fixed en 8 l8 len).

(** *** Abbreviations *)
Record decl_attr := { a_name : Z; a_form : Z; a_const : Z }.
Record decl := { d_tag : Z; d_children : bool; d_attrs : list decl_attr }.
Inductive enc_decl_attrs : list decl_attr -> list Z -> Prop :=
| da_end b1 b2 : uleb b1 0 -> uleb b2 0 -> enc_decl_attrs [] (b1 ++ b2)
| da_attr a l b1 b2 b3 bs : uleb b1 (a_name a) -> a_name a < 2 ^ 32 -> uleb b2 (a_form a) -> a_form a < 2 ^ 32 -> ~ (a_name a = 0 /\ a_form a = 0) ->
    (if a_form a =? 0x21 then sleb b3 (a_const a) else b3 = []) -> enc_decl_attrs l bs -> enc_decl_attrs (a :: l) (b1 ++ b2 ++ b3 ++ bs).
(** numbered one after the other *)
Inductive enc_decls : Z -> list decl -> list Z -> Prop :=
| ds_end n b : uleb b 0 -> enc_decls n [] b
| ds_decl n d l b1 b2 c b3 bs : uleb b1 n -> 0 < n < 2 ^ 32 -> uleb b2 (d_tag d) -> d_tag d < 2 ^ 32 -> c = (if d_children d then 1 else 0) ->
    enc_decl_attrs (d_attrs d) b3 -> enc_decls (n + 1) l bs -> enc_decls n (d :: l) (b1 ++ b2 ++ [c] ++ b3 ++ bs).

(** *** Attribute values *)
Inductive item :=
| IUnsigned (n : Z) | ISigned (n : Z) | IString (s : list Z) | IBlock (bytes : list Z)
| IStrp (offset : Z) | ILineStrp (offset : Z) | IStrx (index : Z)   (* strings in other sections *)
| IAddrx (short : bool) (index : Z)   (* an address in .debug_addr; whether the index takes one byte *)
| IConst   (* the constant in the abbreviation *)
| IWide   (* 128 bits *)
| IForeign.   (* refers to a supplementary file or to a list of locations *)
Definition forms1 := [(0x0b, 1); (0x0c, 1); (0x11, 1); (0x05, 2); (0x12, 2); (0x06, 4); (0x13, 4); (0x07, 8); (0x14, 8); (0x20, 8)].
Section Values.
Context (en : endian) (version asz osz : Z).
(** Form in the abbreviation, bytes, actual form, value. *)
Inductive enc_value : Z -> list Z -> Z -> item -> Prop :=
| ev_fixed f n bs v : In (f, n) forms1 -> fixed en n bs v -> enc_value f bs f (IUnsigned v)
| ev_present : enc_value 0x19 [] 0x19 (IUnsigned 1)
| ev_uleb f bs v : In f [0x0f; 0x15; 0x23] -> uleb bs v -> enc_value f bs f (IUnsigned v)
| ev_sdata bs v : sleb bs v -> enc_value 0x0d bs 0x0d (ISigned v)
| ev_addr bs v : fixed en asz bs v -> enc_value 0x01 bs 0x01 (IUnsigned v)
| ev_ref_addr bs v : fixed en (if version =? 2 then asz else osz) bs v -> enc_value 0x10 bs 0x10 (IUnsigned v)
| ev_sec_offset bs v : fixed en osz bs v -> enc_value 0x17 bs 0x17 (IUnsigned v)
| ev_string s : Forall (fun b => 0 < b < 256) s -> enc_value 0x08 (s ++ [0]) 0x08 (IString s)
| ev_block f n l b : In (f, n) [(0x0a, 1); (0x03, 2); (0x04, 4)] -> fixed en n l (zlen b) -> enc_value f (l ++ b) f (IBlock b)
| ev_block_leb f l b : In f [0x09; 0x18] -> uleb l (zlen b) -> enc_value f (l ++ b) f (IBlock b)
| ev_strp bs o : fixed en osz bs o -> enc_value 0x0e bs 0x0e (IStrp o)
| ev_line_strp bs o : fixed en osz bs o -> enc_value 0x1f bs 0x1f (ILineStrp o)
| ev_strxn f n bs i : In (f, n) [(0x25, 1); (0x26, 2); (0x27, 3); (0x28, 4)] -> fixed en n bs i -> enc_value f bs f (IStrx i)
| ev_strx f bs i : In f [0x1a; 0x1f02] -> uleb bs i -> enc_value f bs f (IStrx i)
| ev_addrxn f n bs i : In (f, n) [(0x29, 1); (0x2a, 2); (0x2b, 3); (0x2c, 4)] -> fixed en n bs i -> enc_value f bs f (IAddrx (n =? 1) i)
| ev_addrx f bs i : In f [0x1b; 0x1f01] -> uleb bs i -> enc_value f bs f (IAddrx (zlen bs =? 1) i)
| ev_const : enc_value 0x21 [] 0x21 IConst
| ev_data16 bs : zlen bs = 16 -> enc_value 0x1e bs 0x1e IWide
| ev_foreign f n bs v : In (f, n) [(0x1c, 4); (0x24, 8); (0x1d, osz)] -> fixed en n bs v -> enc_value f bs f IForeign
| ev_loclistx bs v : uleb bs v -> enc_value 0x22 bs 0x22 IForeign
| ev_indirect b1 f bs real it : uleb b1 f -> f < 2 ^ 32 -> f <> 0x21 -> enc_value f bs real it -> enc_value 0x16 (b1 ++ bs) real it.
Inductive enc_items : list decl_attr -> list Z -> list (Z * item) -> Prop :=
| ei_nil : enc_items [] [] []
| ei_cons a l bs bs' real it its : enc_value (a_form a) bs real it -> enc_items l bs' its -> enc_items (a :: l) (bs ++ bs') ((real, it) :: its).

(** *** Entries: offset in .debug_info, abbreviation, values, children *)
Inductive tree := Tree (offset : Z) (d : decl) (items : list (Z * item)) (kids : list tree).
Context (decls : list decl).
Inductive enc_tree : Z -> tree -> list Z -> Prop :=
| et_leaf pos num d items b1 b2 : uleb b1 num -> 0 < num -> nth_error decls (Z.to_nat (num - 1)) = Some d -> d_children d = false ->
    enc_items (d_attrs d) b2 items -> enc_tree pos (Tree pos d items []) (b1 ++ b2)
| et_node pos num d items kids b1 b2 b3 b4 : uleb b1 num -> 0 < num -> nth_error decls (Z.to_nat (num - 1)) = Some d -> d_children d = true ->
    enc_items (d_attrs d) b2 items -> enc_trees (pos + zlen b1 + zlen b2) kids b3 -> uleb b4 0 -> enc_tree pos (Tree pos d items kids) (b1 ++ b2 ++ b3 ++ b4)
with enc_trees : Z -> list tree -> list Z -> Prop :=
| es_nil pos : enc_trees pos [] []
| es_cons pos t l b bs : enc_tree pos t b -> enc_trees (pos + zlen b) l bs -> enc_trees pos (t :: l) (b ++ bs).
(** the entries of a unit, with padding *)
Inductive enc_tops : Z -> list tree -> list Z -> Prop :=
| eo_nil pos : enc_tops pos [] []
| eo_pad pos l b bs : uleb b 0 -> enc_tops (pos + zlen b) l bs -> enc_tops pos l (b ++ bs)
| eo_cons pos t l b bs : enc_tree pos t b -> enc_tops (pos + zlen b) l bs -> enc_tops pos (t :: l) (b ++ bs).
End Values.

(** *** Units *)
Record dunit := { u_offset : Z; u_length : Z; u_version : Z; u_asz : Z; u_osz : Z; u_trees : list tree }.
Section Units.
Context (en : endian) (s : sections).
(** the header of the table in .debug_str_offsets or .debug_addr; [tail] are the two bytes
    behind the version *)
Definition table_header (b : list Z) (osz : Z) (tail : Z -> Z -> Prop) : Prop :=
  exists il len ver x y rest, b = il ++ ver ++ [x; y] ++ rest /\ initial_length en il osz len /\ fixed en 2 ver 5 /\ tail x y.
Definition tables_ok (version asz osz : Z) : Prop :=
  version = 5 ->
  (forall b, s_str_offsets s = Some b -> table_header b osz (fun _ _ => True)) /\
  (forall b, s_addr s = Some b -> table_header b osz (fun x y => x = asz /\ is_byte y)).
(** the bytes between the length and the entries *)
Inductive enc_header (version asz osz ao : Z) : list Z -> Prop :=
| eh_old v a : 2 <= version < 5 -> fixed en 2 v version -> fixed en osz a ao -> enc_header version asz osz ao (v ++ a ++ [asz])
| eh_5 v a : version = 5 -> fixed en 2 v version -> fixed en osz a ao -> enc_header version asz osz ao (v ++ [1; asz] ++ a)
| eh_5_id v a ut id : version = 5 -> fixed en 2 v version -> fixed en osz a ao -> ut = 4 \/ ut = 5 -> zlen id = 8 -> enc_header version asz osz ao (v ++ [ut; asz] ++ a ++ id).
Inductive enc_unit : Z -> dunit -> list Z -> Prop :=
| eu offset version asz osz len il hb ao pre tab post decls trees bs : initial_length en il osz len -> len = zlen (hb ++ bs) ->
    asz = 4 \/ asz = 8 -> enc_header version asz osz ao hb -> tables_ok version asz osz ->
    s_abbrev s = Some (pre ++ tab ++ post) -> zlen pre = ao -> enc_decls 1 decls tab ->
    enc_tops en version asz osz decls (offset + zlen il + zlen hb) trees bs -> bs <> [] ->
    enc_unit offset {| u_offset := offset; u_length := len; u_version := version; u_asz := asz; u_osz := osz; u_trees := trees |} (il ++ hb ++ bs).
Inductive enc_units : Z -> list dunit -> list Z -> Prop :=
| un_nil pos : enc_units pos [] []
| un_cons pos u l b bs : enc_unit pos u b -> enc_units (pos + zlen b) l bs -> enc_units pos (u :: l) (b ++ bs).

(** *** What the handler is to be given.  [None]: no claim. *)
Definition andthen {A B} (x : option (outcome A)) (f : A -> option (outcome B)) : option (outcome B) :=
  match x with None => None | Some (Ok a) => f a | Some Abort => Some Abort | Some UB => Some UB end.
Fixpoint cut (l : list Z) : option (list Z) :=
  match l with [] => None | b :: l' => if b =? 0 then Some [] else option_map (cons b) (cut l') end.
(** the string at an offset; the null pointer if it is not in the section *)
Definition string_in (sec : list Z) (offset : Z) : option (outcome (option value)) :=
  if zlen sec <=? offset then Some (Ok (Some (VString None)))
  else match cut (skipn (Z.to_nat offset) sec) with Some str => Some (Ok (Some (VString (Some str)))) | None => None end.
Definition entry_of (table : list Z) (pos size : Z) : option Z :=
  if (0 <=? pos) && (pos + size <=? zlen table) then Some (num_of en (firstn (Z.to_nat size) (skipn (Z.to_nat pos) table))) else None.
Context {S : Type} (h : handler S) (u : dunit).
Definition value_of (a : decl_attr) (it : item) (hs : S) : option (outcome (option value)) :=
  match it with
  | IUnsigned n => Some (Ok (Some (VUnsigned n)))
  | ISigned n => Some (Ok (Some (VSigned n)))
  | IString str => Some (Ok (Some (VString (Some str))))
  | IBlock b => Some (Ok (Some (VBuffer b)))
  | IStrp o => match s_str s with None => Some Abort | Some sec => string_in sec o end
  | ILineStrp o => match s_line_str s with None => Some Abort | Some sec => string_in sec o end
  | IStrx i =>
      match s_str s, s_str_offsets s with
      | Some sec, Some table => match entry_of table ((if u_version u =? 5 then h_str_base h hs else 0) + i * u_osz u) (u_osz u) with Some o => string_in sec o | None => None end
      | _, _ => Some Abort
      end
  | IAddrx short i =>
      if short then match s_addr s with
                    | Some table => match entry_of table (h_addr_base h hs + i * u_asz u) (u_asz u) with Some v => Some (Ok (Some (VUnsigned v))) | None => None end
                    | None => Some Abort
                    end
      else None
  | IConst => if u_version u =? 5 then if (0 <=? a_const a) && (a_const a <? 2 ^ 32) then Some (Ok (Some (VSigned (a_const a)))) else None else Some Abort
  | IWide => Some (Ok None)
  | IForeign => Some Abort
  end.
(** The state is that of the handler and the name of the .dwo file, if there was one. *)
Definition give (offset : Z) (a : decl_attr) (real : Z) (v : value) (st : S * option (list Z)) : outcome (S * option (list Z)) :=
  let! hs := h_attr h offset (a_name a) real v (fst st) in
  Ok (hs, match v with VString d => if (a_name a =? 0x2130) || (a_name a =? 0x76) then d else snd st | _ => snd st end).
Fixpoint visit_items (offset : Z) (l : list decl_attr) (items : list (Z * item)) (st : S * option (list Z)) : option (outcome (S * option (list Z))) :=
  match l, items with
  | a :: l, (real, it) :: items =>
      andthen (value_of a it (fst st)) (fun v =>
      andthen (match v with Some v => Some (give offset a real v st) | None => Some (Ok st) end) (fun st => visit_items offset l items st))
  | _, _ => Some (Ok st)
  end.
(** An entry that the handler does not want is skipped; the reader cannot skip
    DW_FORM_line_strp. *)
Definition skip_items (items : list (Z * item)) (st : S * option (list Z)) : option (outcome (S * option (list Z))) :=
  if existsb (fun x => fst x =? 0x1f) items then Some Abort else Some (Ok st).
Fixpoint visit (t : tree) (st : S * option (list Z)) : option (outcome (S * option (list Z))) :=
  match t with
  | Tree offset d items kids =>
      andthen (Some (h_start h offset (d_tag d) (map (fun a => (a_name a, a_form a)) (d_attrs d)) (fst st))) (fun '(wanted, hs) =>
      andthen (if (wanted : bool) then visit_items offset (d_attrs d) items (hs, snd st) else skip_items items (hs, snd st)) (fun st =>
      andthen ((fix all l st := match l with [] => Some (Ok st) | t :: l => andthen (visit t st) (fun st => all l st) end) kids st) (fun st =>
      Some (let! hs := h_end h offset (fst st) in Ok (hs, snd st)))))
  end.
Fixpoint visit_all (l : list tree) (st : S * option (list Z)) : option (outcome (S * option (list Z))) :=
  match l with [] => Some (Ok st) | t :: l => andthen (visit t st) (fun st => visit_all l st) end.
End Units.
Section Sequence.
Context (en : endian) (s : sections) {S : Type} (h : handler S).
(** The bases of the tables are those behind the header of the section, until the
    handler changes them. *)
Definition visit_unit (u : dunit) (hs : S) : option (outcome S) :=
  andthen (Some (h_unit h (u_offset u) (u_asz u) (u_osz u) (u_length u) (u_version u) hs)) (fun '(wanted, hs) =>
  if (wanted : bool) then
    let base := if u_osz u =? 8 then 16 else 8 in
    let hs := match s_str_offsets s with Some _ => if u_version u =? 5 then h_set_str_base h base hs else hs | None => hs end in
    let hs := match s_addr s with Some _ => if u_version u =? 5 then h_set_addr_base h base hs else hs | None => hs end in
    andthen (visit_all en s h u (u_trees u) (hs, None)) (fun '(hs, dwo) =>
    Some (match dwo with Some d => h_split h d hs | None => Ok hs end))
  else Some (Ok hs)).
Fixpoint visit_units (l : list dunit) (hs : S) : option (outcome S) :=
  match l with [] => Some (Ok hs) | u :: l => andthen (visit_unit u hs) (fun hs => visit_units l hs) end.
End Sequence.
