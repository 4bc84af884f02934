(** What the address mapper is supposed to do, stated on the addresses of the
    blocks of the binary. *)
From Verif Require Import Base SymbolModel ElideModel MapperModel.
From Coq Require Import Permutation.

(** The function and the address range of the i-th block the mapper knows. *)
Definition blk_func (mp : mapper) (i : nat) : nat := bh_func (nth i (mp_handles mp) no_handle).
Definition blk_start (mp : mapper) (i : nat) : Z :=
  let h := nth i (mp_handles mp) no_handle in
  fm_addr (GetFunctionEntry (mp_funcs mp) h) + be_offset (GetBBEntry (mp_funcs mp) h).
Definition blk_end (mp : mapper) (i : nat) : Z :=
  blk_start mp i + be_size (GetBBEntry (mp_funcs mp) (nth i (mp_handles mp) no_handle)).
Definition blk_count (mp : mapper) : nat := length (mp_handles mp).
Definition contains (mp : mapper) (i : nat) (a : Z) : Prop := blk_start mp i <= a < blk_end mp i.

(** The blocks are listed by address, do not overlap, and lie in the 64-bit
    address space. *)
Definition layout_ok (mp : mapper) : Prop :=
  (forall i, (i < blk_count mp)%nat ->
     0 <= blk_start mp i <= blk_end mp i /\ blk_end mp i < w64) /\
  (forall i j, (i < j < blk_count mp)%nat -> blk_end mp i <= blk_start mp j).

(** The same for the functions of the binary. *)
Definition ent (fs : list func_map) (f b : nat) : bb_entry :=
  nth b (fm_entries (nth f fs no_func)) no_entry.
Definition nents (fs : list func_map) (f : nat) : nat := length (fm_entries (nth f fs no_func)).
Definition binary_ok (fs : list func_map) : Prop :=
  (forall f, (f < length fs)%nat -> 0 <= fm_addr (nth f fs no_func)) /\
  (forall f b, (f < length fs)%nat -> (b < nents fs f)%nat ->
     0 <= be_offset (ent fs f b) /\ 0 <= be_size (ent fs f b) /\
     fm_addr (nth f fs no_func) + be_offset (ent fs f b) + be_size (ent fs f b) < w64) /\
  (forall f b b', (f < length fs)%nat -> (b < b' < nents fs f)%nat ->
     be_offset (ent fs f b) + be_size (ent fs f b) <= be_offset (ent fs f b')) /\
  (forall f g, (f < g < length fs)%nat -> fm_addr (nth f fs no_func) < fm_addr (nth g fs no_func)) /\
  (forall f g b, (f < g < length fs)%nat -> (b < nents fs f)%nat ->
     fm_addr (nth f fs no_func) + be_offset (ent fs f b) + be_size (ent fs f b) <= fm_addr (nth g fs no_func)).

(** Block [j] is the first of the run of blocks at address [a] that ends with
    the last block at [a] and stays in that block's function. *)
Definition first_of_run (mp : mapper) (a : Z) (j : nat) : Prop :=
  exists k, (j <= k < blk_count mp)%nat /\
    blk_start mp k = a /\
    (forall x, (k < x < blk_count mp)%nat -> blk_start mp x <> a) /\
    (forall x, (j <= x <= k)%nat -> blk_start mp x = a /\ blk_func mp x = blk_func mp k) /\
    (forall p, j = S p -> blk_start mp p <> a \/ blk_func mp p <> blk_func mp k).

(** The sampled range from block [i] to block [j] can be executed without a
    taken branch. *)
Definition fallthrough_path (mp : mapper) (i j : nat) : Prop :=
  i = j \/
  (blk_func mp i = blk_func mp j /\
   let f := blk_func mp i in
   let bi := bh_bb (nth i (mp_handles mp) no_handle) in
   let bj := bh_bb (nth j (mp_handles mp) no_handle) in
   (bi <= bj)%nat /\
   forall b, (bi <= b < bj)%nat -> be_fallthrough (ent (mp_funcs mp) f b) = true).

(** How often name [n] occurs among the aliases of the functions [sel]. *)
Definition name_eq_dec : forall a b : name, {a = b} + {a <> b} := list_eq_dec Z.eq_dec.
Definition uses (im : info_map) (sel : list nat) (n : name) : nat :=
  count_occ name_eq_dec (flat_map (aliases_of im) sel) n.
(** The functions of [sel] (ascending) that have [n] among their names. *)
Definition owners (im : info_map) (sel : list nat) (n : name) : list nat :=
  filter (fun f => existsb (name_eqb n) (aliases_of im f)) sel.
(** Two functions have blocks of the same offsets and sizes. *)
Definition same_shape (fs : list func_map) (f g : nat) : Prop :=
  map (fun e => (be_offset e, be_size e)) (fm_entries (nth f fs no_func)) =
  map (fun e => (be_offset e, be_size e)) (fm_entries (nth g fs no_func)).

(** Address [a] is in function [i]:
    at or above its start and below the end of one of its blocks. *)
Definition covers (fs : list func_map) (i : nat) (a : Z) : Prop :=
  fm_addr (nth i fs no_func) <= a /\
  exists b, (b < nents fs i)%nat /\
    a < fm_addr (nth i fs no_func) + be_offset (ent fs i b) + be_size (ent fs i b).
(** The functions eligible before names are compared: sampled (if sample
    addresses are given), with a symbol name, and, if asked for, in .text. *)
Definition candidate (only_text : bool) (fs : list func_map) (im : info_map) (hot : option (list Z)) (i : nat) : Prop :=
  (i < length fs)%nat /\
  match hot with None => True | Some addrs => exists a, In a addrs /\ covers fs i a end /\
  exists s, info_of im i = Some s /\ (only_text = true -> si_section s = dot_text).
(** Hash map iteration visits every entry once, in any order. *)
Definition any_order {A} (order : list A -> list A) : Prop := forall t, Permutation (order t) t.
Definition addrs_ok (hot : option (list Z)) : Prop :=
  match hot with None => True | Some addrs => forall a, In a addrs -> 0 <= a < w64 end.
