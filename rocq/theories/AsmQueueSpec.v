(** What a queue of candidate merges should do. *)
From Verif Require Import Base ChainModel AsmQueueModel.

(** The operation says something about the pair of chains (x, y). *)
Definition touches (o : qop) (x y : Z) : Prop :=
  match o with
  | QInsert a => a_split a = x /\ a_unsplit a = y
  | QRemove p => p = (x, y)
  end.
(** After the operations the queue should hold [a]: it was inserted, and since
    then nothing was inserted or removed for its pair of chains. *)
Definition live (ops : list qop) (a : assembly) : Prop :=
  exists before after, ops = before ++ QInsert a :: after /\
    forall o, In o after -> ~ touches o (a_split a) (a_unsplit a).

(** The order of merge_order (llvm_propeller_node_chain_assembly.h). *)
Inductive order_before : merge_order -> merge_order -> Prop :=
| ob_01 : order_before kSU kS2S1U | ob_02 : order_before kSU kS1US2 | ob_03 : order_before kSU kUS2S1 | ob_04 : order_before kSU kS2US1
| ob_12 : order_before kS2S1U kS1US2 | ob_13 : order_before kS2S1U kUS2S1 | ob_14 : order_before kS2S1U kS2US1
| ob_23 : order_before kS1US2 kUS2S1 | ob_24 : order_before kS1US2 kS2US1 | ob_34 : order_before kUS2S1 kS2US1.
Inductive pos_before : option Z -> option Z -> Prop :=
| pb_none y : pos_before None (Some y)
| pb_some x y : (x < y)%Z -> pos_before (Some x) (Some y).
(** [a] is a worse candidate than [b]: a smaller gain; at equal gains a chain
    with a larger id. *)
Definition worse (a b : assembly) : Prop :=
  (a_gain a < a_gain b)%Z \/ a_gain a = a_gain b /\
  ((a_split b < a_split a)%Z \/ a_split a = a_split b /\
  ((a_unsplit b < a_unsplit a)%Z \/ a_unsplit a = a_unsplit b /\
  (order_before (a_order a) (a_order b) \/ a_order a = a_order b /\ pos_before (a_pos a) (a_pos b)))).
