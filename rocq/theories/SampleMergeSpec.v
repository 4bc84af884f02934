(** Specification vocabulary for C68. *)
From Verif Require Import Base SampleModel SampleSpec SampleMergeModel.

(** the file at [p] is a text sample file with the samples [m] *)
Definition sample_file (fs : files) (p : list Z) (m : samples) : Prop :=
  exists c, fs p = Some c /\ Append c samples0 = Ok (m, true).

(** the sum of the counts that [l] has for one key *)
Definition sum_counts (l : list (option Z)) : option Z := fold_right add_counts None l.
(** [r] has for every key the sum of the counts of [ms] *)
Definition sum_of_all (ms : list samples) (r : samples) : Prop :=
  (forall k, range_at r k = sum_counts (map (fun m => range_at m k) ms)) /\
  (forall k, addr_at r k = sum_counts (map (fun m => addr_at m k) ms)) /\
  (forall k, branch_at r k = sum_counts (map (fun m => branch_at m k) ms)).

(** what the output file held before: nothing if it did not exist *)
Definition held_before (fs : files) (output : list Z) (m0 : samples) : Prop :=
  (fs output = None /\ m0 = samples0) \/ sample_file fs output m0.

(** the inputs that are not empty names, each with its samples *)
Definition inputs_hold (reads : list Z -> samples -> Prop) (inputs : list (list Z)) (ms : list samples) : Prop :=
  Forall2 reads (filter (fun p => match p with [] => false | _ => true end) inputs) ms.
