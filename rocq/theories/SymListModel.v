(** Model of profile_symbol_list.cc: which symbols go into the profile symbol
    list. *)
From Verif Require Import Base ISort SymbolModel.
From Coq Require Import Reals.
From Flocq Require Import Core.

(** IEEE-754 binary64 rounding to nearest even (Flocq); the values here are far
    below the overflow threshold. *)
Definition rnd64 (x : R) : R := round radix2 (FLT_exp (-1074) 53) ZnearestE x.

(** profile_symbol_list.cc:18: 0.0 <= ratio <= 1.0. *)
Definition ratio_valid (ratio : R) : bool :=
  if Rle_dec 0 ratio then (if Rle_dec ratio 1 then true else false) else false.

(** profile_symbol_list.cc:54: total_size * ratio in double, truncated. *)
Definition total_threshold (total : Z) (ratio : R) : Z :=
  Ztrunc (rnd64 (rnd64 (IZR total) * ratio)).

(** std::partial_sum over uint64_t. *)
Fixpoint partial_sum (acc : Z) (l : list Z) : list Z :=
  match l with
  | [] => []
  | x :: l' => let s := u64 (acc + x) in s :: partial_sum s l'
  end.

(** std::lower_bound: index of the first element not less than [x]. *)
Fixpoint lower_bound (x : Z) (l : list Z) : nat :=
  match l with
  | [] => O
  | y :: l' => if y <? x then S (lower_bound x l') else O
  end.

(** profile_symbol_list.cc:30-82 fillProfileSymbolList: the names added to the
    list.  [orig] is SymbolMap::GetOriginalName; both branches of lines 74-80
    add the original name.  Reading sizes[] behind its end is undefined. *)
Definition fillProfileSymbolList (orig : name -> name) (l : list (name * Z)) (ratio : R)
  : outcome (list name) :=
  match l with
  | [] => Ok []
  | _ :: _ =>
      if negb (ratio_valid ratio) then Abort
      else if Req_EM_T ratio 0 then Ok []
      else
        let total := fold_left (fun a '(_, s) => u64 (a + s)) l 0 in
        let sizes := isort (fun a b => b <=? a) (map snd l) in
        let t := total_threshold total ratio in
        match sizes with
        | [] => UB
        | biggest :: _ =>
            if t <? biggest then Ok []
            else
              match nth_error sizes (lower_bound t (partial_sum 0 sizes)) with
              | None => UB
              | Some cutoff => Ok (map (fun e => orig (fst e)) (filter (fun e => cutoff <=? snd e) l))
              end
        end
  end.
