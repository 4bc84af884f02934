(** Which pair of blocks a branch sample and a fall-through sample belong to. *)
From Verif Require Import Base CfgFreqModel SymbolModel MapperModel MapperSpec CfgBuildModel.
From Coq Require Import Permutation.

(** The block of an address (C34 says which one that is). *)
Definition block_of (mp : mapper) (a : Z) (dir : direction) : option nat :=
  match FindBb false mp a dir with Ok r => r | _ => None end.
Definition blk_entry (mp : mapper) (i : nat) : bb_entry :=
  GetBBEntry (mp_funcs mp) (nth i (mp_handles mp) no_handle).
Definition blk_handle (mp : mapper) (i : nat) : bb_handle := nth i (mp_handles mp) no_handle.
Definition func_start (mp : mapper) (i : nat) : Z := fm_addr (nth (blk_func mp i) (mp_funcs mp) no_func).

(** The branch [from -> to], landing in block [j], returns to the block after
    a call: it may be a return (unknown source, source block with a return, or
    another function), and it lands at the start of [j], which starts neither
    the function's code nor its list of blocks. *)
Definition returns_behind_call (mp : mapper) (from to : Z) (j : nat) : bool :=
  (match block_of mp from DFrom with
   | None => true
   | Some i => be_return (blk_entry mp i) || negb (blk_func mp j =? blk_func mp i)%nat
   end)
  && (to =? blk_start mp j) && negb (to =? func_start mp j)
  && negb (bh_bb (blk_handle mp j) =? 0)%nat.

(** The blocks connected by the branch; the call block stands for the block a
    call returns to. *)
Definition branch_ends (mp : mapper) (c : counter) : option (nat * nat) :=
  let '((from, to), _) := c in
  match block_of mp from DFrom, block_of mp to DTo with
  | Some i, Some j => Some (i, if returns_behind_call mp from to j then (j - 1)%nat else j)
  | _, _ => None
  end.
Definition branch_kind (mp : mapper) (c : counter) : option edge_kind :=
  let '((from, to), _) := c in
  match branch_ends mp c with
  | Some (i, j) =>
      Some (if to =? func_start mp j then KCall
            else if negb (to =? blk_start mp j) || be_return (blk_entry mp i) then KRet
            else KBranchOrFallthrough)
  | None => None
  end.
(** Such a return also means the call block was left by falling through. *)
Definition implied_path (mp : mapper) (c : counter) : option (nat * nat) :=
  let '((from, to), _) := c in
  match block_of mp to DTo with
  | Some j => if returns_behind_call mp from to j then Some ((j - 1)%nat, j) else None
  | None => None
  end.
(** A fall-through range begins where a branch landed and ends where the next
    one left. *)
Definition sampled_path (mp : mapper) (c : counter) : option (nat * nat) :=
  let '((from, to), _) := c in
  match block_of mp from DTo, block_of mp to DFrom with
  | Some i, Some j => Some (i, j)
  | _, _ => None
  end.
(** The path [p] is a valid fall-through path that goes from [a] to [a + 1]. *)
Definition passes (mp : mapper) (a : nat) (p : option (nat * nat)) : bool :=
  match p with
  | Some (f, t) => (f <=? a)%nat && (a <? t)%nat && CanFallThrough mp f t
  | None => false
  end.
Definition is_pair (a b : nat) (p : option (nat * nat)) : bool :=
  match p with Some (i, j) => (i =? a)%nat && (j =? b)%nat | None => false end.

(** Sum of the counts of the counters satisfying [P]. *)
Fixpoint sum_if (P : counter -> bool) (l : list counter) : Z :=
  match l with [] => 0 | c :: l' => (if P c then snd c else 0) + sum_if P l' end.

(** The weight the edge from block [a] to block [b] should have. *)
Definition expected_weight (mp : mapper) (branches falls : list counter) (a b : nat) : Z :=
  sum_if (fun c => is_pair a b (branch_ends mp c)) branches +
  (if (b =? S a)%nat
   then sum_if (fun c => passes mp a (implied_path mp c)) branches +
        sum_if (fun c => passes mp a (sampled_path mp c)) falls
   else 0).

(** The weight the result gives to a pair of blocks (0 without an edge). *)
Definition edge_weight (st : cstate) (k : ekey) : Z :=
  match aget ekey_eqb k (cs_edges st) with Some (w, _) => w | None => 0 end.
Definition total_weight (st : cstate) : Z := fold_right (fun e s => fst (snd e) + s) 0 (cs_edges st).
Definition counts_ok (branches falls : list counter) : Prop :=
  (forall c, In c (branches ++ falls) -> 0 <= snd c) /\
  sum_if (fun _ => true) branches + sum_if (fun _ => true) falls < 2147483648.
