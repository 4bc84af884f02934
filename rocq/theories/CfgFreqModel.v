(** Model of block frequencies and the hot-block frequency threshold of the
    Propeller CFG: llvm_propeller_cfg.{h,cc}, llvm_propeller_program_cfg.cc. *)
From Verif Require Import Base.
From Coq Require Import Permutation.

(** llvm_propeller_cfg.h:35-39 CFGEdge::Kind. *)
Inductive edge_kind := KBranchOrFallthrough | KCall | KRet.

(** llvm_propeller_cfg.h:87-93: an edge as its endpoint nodes see it (the
    endpoints themselves do not matter for the frequency). *)
Record wedge := WEdge { we_weight : Z; we_kind : edge_kind }.

(** llvm_propeller_cfg.h:56-57 IsCall, IsReturn. *)
Definition is_call (e : wedge) : bool := match we_kind e with KCall => true | _ => false end.
Definition is_ret (e : wedge) : bool := match we_kind e with KRet => true | _ => false end.

(** Addition of two C++ ints; overflow is undefined behaviour. *)
Definition int_add (a b : Z) : outcome Z :=
  if (- 2147483648 <=? a + b) && (a + b <=? 2147483647) then Ok (a + b) else UB.

(** llvm_propeller_cfg.cc:137-145 and 147-155: one of the two loops; [heavy]
    says which edges count only with their maximum. *)
Fixpoint freq_loop (heavy : wedge -> bool) (mx sum : Z) (es : list wedge) : outcome (Z * Z) :=
  match es with
  | [] => Ok (mx, sum)
  | e :: es' =>
      if heavy e then freq_loop heavy (Z.max mx (we_weight e)) sum es'
      else let! s := int_add sum (we_weight e) in freq_loop heavy mx s es'
  end.

(** llvm_propeller_cfg.cc:117-158 CFGNode::CalculateFrequency.  The four lists
    are the node's inter_outs_, intra_outs_, inter_ins_, intra_ins_. *)
Definition CalculateFrequency (inter_outs intra_outs inter_ins intra_ins : list wedge) : outcome Z :=
  let! '(max_call_out, sum_out) := freq_loop is_call 0 0 (inter_outs ++ intra_outs) in
  let! '(max_ret_in, sum_in) := freq_loop is_ret 0 0 (inter_ins ++ intra_ins) in
  Ok (Z.max max_call_out (Z.max max_ret_in (Z.max sum_out sum_in))).

(** llvm_propeller_program_cfg.cc:40-44 NodeFrequencyInfo:
    (frequency, function_index, node_index). *)
Notation node_freq := (Z * Z * Z)%type.

(** llvm_propeller_program_cfg.cc:59-64: the comparison given to nth_element. *)
Definition nf_ltb (a b : node_freq) : bool :=
  let '(fa, ia, na) := a in
  let '(fb, ib, nb) := b in
  (fa <? fb) || ((fa =? fb) && ((ia <? ib) || ((ia =? ib) && (na <? nb)))).

(** llvm_propeller_program_cfg.cc:50-56: the inner loop, i counting up. *)
Fixpoint hot_of_function (fi i : Z) (freqs : list Z) : list node_freq :=
  match freqs with
  | [] => []
  | f :: fs => (if f =? 0 then [] else [(f, fi, i)]) ++ hot_of_function fi (i + 1) fs
  end.

(** llvm_propeller_program_cfg.cc:45-56.  [cfgs] lists the function indices
    with the frequencies of their nodes, in the (unspecified) iteration order of
    the hash map. *)
Definition hot_nodes (cfgs : list (Z * list Z)) : list node_freq :=
  flat_map (fun '(fi, fs) => hot_of_function fi 0 fs) cfgs.

(** The contract of std::nth_element(l.begin(), l.begin() + k, l.end(), lt):
    the vector is permuted so that nothing before position k is after, and
    nothing behind it before, the element at position k. *)
Definition nth_element_result (k : nat) (l l' : list node_freq) : Prop :=
  Permutation l l' /\
  forall x, nth_error l' k = Some x ->
    (forall y, In y (firstn k l') -> nf_ltb x y = false) /\
    (forall y, In y (skipn (S k) l') -> nf_ltb y x = false).

(** llvm_propeller_program_cfg.cc:57: size_t * int / 100 - 1 computed unsigned
    in 64 bits and then stored in an int. *)
Definition cutoff_index (n p : Z) : Z :=
  let x := u64 (u64 (n * p) / 100 - 1) in
  let y := u32 x in
  if y <? 2147483648 then y else y - w32.

(** llvm_propeller_program_cfg.cc:36-66 GetNodeFrequencyThreshold as a relation
    (nth_element is only specified up to its contract). *)
Inductive GetNodeFrequencyThreshold (cfgs : list (Z * list Z)) (p : Z) : outcome Z -> Prop :=
| threshold_check : ~ (0 <= p <= 100) -> GetNodeFrequencyThreshold cfgs p Abort
| threshold_empty : 0 <= p <= 100 -> hot_nodes cfgs = [] ->
    GetNodeFrequencyThreshold cfgs p (Ok 0)
| threshold_low : 0 <= p <= 100 -> hot_nodes cfgs <> [] ->
    cutoff_index (zlen (hot_nodes cfgs)) p < 0 ->
    GetNodeFrequencyThreshold cfgs p (Ok 0)
| threshold_nth l' x : 0 <= p <= 100 -> hot_nodes cfgs <> [] ->
    0 <= cutoff_index (zlen (hot_nodes cfgs)) p ->
    nth_element_result (Z.to_nat (cutoff_index (zlen (hot_nodes cfgs)) p)) (hot_nodes cfgs) l' ->
    nth_error l' (Z.to_nat (cutoff_index (zlen (hot_nodes cfgs)) p)) = Some x ->
    GetNodeFrequencyThreshold cfgs p (Ok (fst (fst x))).
