(** Model of symbol_map.cc 1161-1193 GetSampledSymbolStartAddressSizeMap.
    address_symbol_map_ and the result are std::maps: lists in increasing order
    of addresses.  [totals]: map_.find(name)->second->total_count, if the name is
    in map_ with a symbol. *)
From Verif Require Import Base SymbolModel AddrModel.
Open Scope Z_scope.

Notation addr_table := (list (Z * (name * Z))) (only parsing).
(** upper_bound(a), and the entry before it *)
Fixpoint entry_before (t : addr_table) (a : Z) (best : option (Z * (name * Z))) : option (Z * (name * Z)) :=
  match t with
  | [] => best
  | e :: t' => if a <? fst e then best else entry_before t' a (Some e)
  end.
(** ret.insert of a key and a value *)
Fixpoint map_put (k z : Z) (m : list (Z * Z)) : list (Z * Z) :=
  match m with
  | [] => [(k, z)]
  | (k', z') :: m' => if k <? k' then (k, z) :: m else if k' <? k then (k', z') :: map_put k z m' else m
  end.
(** symbol_map.cc:1166-1182 *)
Fixpoint sampled_loop (segs : list (Z * Z)) (t : addr_table) (addrs : list Z) (next_start_addr : Z) (ret : list (Z * Z)) : outcome (list (Z * Z)) :=
  match addrs with
  | [] => Ok ret
  | a :: addrs' =>
      let! adjusted := get_static_vaddr segs a in
      if adjusted <? next_start_addr then sampled_loop segs t addrs' next_start_addr ret
      else match entry_before t adjusted None with
           | None => sampled_loop segs t addrs' next_start_addr ret
           | Some (k, (_, z)) => sampled_loop segs t addrs' (u64 (k + z)) (map_put k z ret)
           end
  end.
(** symbol_map.cc:1183-1191 *)
Definition add_counted (totals : name -> option Z) (t : addr_table) (ret : list (Z * Z)) : list (Z * Z) :=
  fold_left (fun ret (e : Z * (name * Z)) =>
    if existsb (fun x => fst x =? fst e) ret then ret
    else match totals (fst (snd e)) with
         | Some c => if 0 <? c then map_put (fst e) (snd (snd e)) ret else ret
         | None => ret
         end) t ret.
Definition GetSampledSymbolStartAddressSizeMap (segs : list (Z * Z)) (totals : name -> option Z) (t : addr_table) (addrs : list Z) : outcome (list (Z * Z)) :=
  let! ret := sampled_loop segs t addrs 0 [] in
  Ok (add_counted totals t ret).
