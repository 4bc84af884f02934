(** Specification vocabulary for C67: what a perf.data file with ARM SPE records
    says about the branches of a binary, and the straight-line runs between
    them. Only the records and events of SimpleSpeModel are used, none of its
    functions. *)
From Verif Require Import Base SimpleSpeModel.

(** [n] is the last component of the path [p] *)
Definition names_file (p n : list Z) : Prop :=
  ~ In 47 n /\ (p = n \/ exists d, p = d ++ 47 :: n).
Definition same_file_name (p q : list Z) : Prop :=
  exists n, names_file p n /\ names_file q n.

(** where a file is loaded: address, length, offset in the file *)
Record mapping := { mp_start : Z; mp_len : Z; mp_pgoff : Z }.

(** the first mapping of a file with the name of the binary *)
Definition first_mapping (events : list event) (binary : list Z) (mp : mapping) : Prop :=
  exists before file after,
    events = before ++ Mmap (mp_start mp) (mp_len mp) (mp_pgoff mp) file :: after /\
    same_file_name file binary /\
    forall a l o f, In (Mmap a l o f) before -> ~ same_file_name f binary.

(** the SPE records of all the traces of the file, in order *)
Definition records_of (events : list event) : list spe_record :=
  flat_map (fun e => match e with Auxtrace rs => rs | _ => [] end) events.
Definition has_trace (events : list event) : Prop := exists rs, In (Auxtrace rs) events.

(** an address inside of the mapping, and its offset in the binary *)
Definition offset (mp : mapping) (va : Z) : Z := va - mp_start mp + mp_pgoff mp.
Definition mapped (mp : mapping) (va : Z) : bool :=
  (mp_start mp <=? va) && (va <? mp_start mp + mp_len mp)
  && negb (va =? 0) && negb (offset mp va =? 0).

(** a retired branch of the binary at offset [a] that fell through *)
Definition stays_at (mp : mapping) (a : Z) (r : spe_record) : bool :=
  r_retired r && r_branch r && (r_cond r && r_not_taken r)
  && mapped mp (r_ip r) && (offset mp (r_ip r) =? a).
(** a retired branch of the binary from offset [a] to offset [t] *)
Definition jumps (mp : mapping) (a t : Z) (r : spe_record) : bool :=
  r_retired r && r_branch r && negb (r_cond r && r_not_taken r)
  && mapped mp (r_ip r) && mapped mp (r_target r)
  && (offset mp (r_ip r) =? a) && (offset mp (r_target r) =? t).
(** ... from anywhere in the binary to offset [t] *)
Definition jumps_to (mp : mapping) (t : Z) (r : spe_record) : bool :=
  jumps mp (offset mp (r_ip r)) t r.
(** a record that counts *)
Definition counts (mp : mapping) (r : spe_record) : bool :=
  stays_at mp (offset mp (r_ip r)) r || jumps mp (offset mp (r_ip r)) (offset mp (r_target r)) r.

Definition how_many (p : spe_record -> bool) (events : list event) : Z :=
  zlen (filter p (records_of events)).

Section Runs.
  Variables (mp : mapping) (events : list event).
  Definition stays (a : Z) : Z := how_many (stays_at mp a) events.
  Definition taken (a t : Z) : Z := how_many (jumps mp a t) events.
  Definition entries (t : Z) : Z := how_many (jumps_to mp t) events.

  Definition is_target (t : Z) : Prop := 0 < entries t.
  Definition is_branch (b : Z) : Prop := 0 < stays b \/ exists t, 0 < taken b t.

  (** how far the code behind target [t] is followed: to the next target, and
      for 4096 bytes if there is none *)
  Definition follows_to (t e : Z) : Prop :=
    is_target t /\
    ((t < e /\ is_target e /\ forall t', is_target t' -> t < t' -> e <= t') \/
     ((forall t', is_target t' -> t' <= t) /\ e = t + 4096)).

  (** a run of [w] executions starts at [s], in the code behind target [t]: [s]
      is [t], or follows a branch that fell through, as did all branches from
      [t] on *)
  Definition run_start (t e s w : Z) : Prop :=
    follows_to t e /\ t <= s < e /\
    ((s = t /\ w = entries t) \/
     (t < s /\ w = stays (s - 4) /\ is_branch (s - 4) /\ t <= s - 4 /\
      forall b, is_branch b -> t <= b <= s - 4 -> 0 < stays b)).

  (** the run ends with the first branch, or before [e] *)
  Definition run_end (e s x : Z) : Prop :=
    (is_branch x /\ s <= x < e /\ forall b, is_branch b -> s <= b -> x <= b) \/
    ((forall b, is_branch b -> s <= b -> e <= b) /\ x = e - 4).

  (** [w] executions of the straight-line code from [s] to [x] *)
  Definition run (s x w : Z) : Prop :=
    exists t e, run_start t e s w /\ run_end e s x.
End Runs.

(** an ARM64 file: addresses are multiples of four, and nothing wraps around *)
Definition a64_file (mp : mapping) (events : list event) : Prop :=
  0 <= mp_start mp /\ 0 <= mp_len mp /\ mp_start mp + mp_len mp < 2 ^ 64 /\
  0 <= mp_pgoff mp /\ mp_pgoff mp + mp_len mp + 4096 <= 2 ^ 64 /\
  (mp_start mp mod 4 = 0 /\ mp_pgoff mp mod 4 = 0) /\
  Forall (fun r => r_ip r mod 4 = 0 /\ r_target r mod 4 = 0) (records_of events) /\
  zlen (records_of events) < 2 ^ 64 /\ zlen events < 2 ^ 64.

(** a map entry for a count: none for zero *)
Definition entry_of (n : Z) : option Z := if n =? 0 then None else Some n.
