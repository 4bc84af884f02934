(** Model of spe_tid_pid_provider.{h,cc}: which process an ARM SPE record
    belongs to. *)
From Verif Require Import Base ZMap.

(** Conversion of a 32-bit unsigned protobuf field to int. *)
Definition s32 (x : Z) : Z := let y := u32 x in if y <? 2147483648 then y else y - w32.

(** The fields pid, tid and time of a protobuf submessage (0 when absent). *)
Record who := Who { w_pid : Z; w_tid : Z; w_time : Z }.

(** perf_data.proto TimeConvEvent, as far as spe_tid_pid_provider.cc:52-68
    reads it. *)
Record time_conv := TimeConv {
  tc_short : bool;    (* cap_user_time_short *)
  tc_cycles : Z;      (* time_cycles *)
  tc_mask : Z;        (* time_mask *)
  tc_shift : Z;       (* time_shift *)
  tc_mult : Z;        (* time_mult *)
  tc_zero : Z         (* time_zero *)
}.

(** A perf event as the constructor reads it: time conversion parameters, fork
    event, sample event (absent submessages read as zeros), sample info. *)
Record event := Event {
  ev_conv : option time_conv;
  ev_fork : who;
  ev_sample : who;
  ev_info : option who
}.

(** spe_tid_pid_provider.h:41-45: tids_to_pids_ (a map from tid to a map from
    time stamp to pid), time_conv_event_, pids_ (a set). *)
Record provider := Provider {
  pr_tids : list (Z * list (Z * Z));
  pr_conv : time_conv;
  pr_pids : list Z
}.
Definition empty_provider : provider := Provider [] (TimeConv false 0 0 0 0 0) [].

(** btree_map::rbegin() of a non-empty map. *)
Fixpoint rbegin {V} (m : list (Z * V)) : option (Z * V) :=
  match m with
  | [] => None
  | [e] => Some e
  | _ :: m' => rbegin m'
  end.

(** spe_tid_pid_provider.cc:31-35: one entry of the map of a thread. *)
Definition record_pid (pid time : Z) (pids : list (Z * Z)) : list (Z * Z) :=
  match rbegin pids with
  | Some (_, p) => if p =? pid then pids else zinsert time pid pids
  | None => zinsert time pid pids
  end.
Definition pids_of (tid : Z) (p : provider) : list (Z * Z) :=
  match aget Z.eqb tid (pr_tids p) with Some m => m | None => [] end.

(** spe_tid_pid_provider.cc:28-37: the lambda [record].  pids_ only gets the
    pid when line 32 did not return. *)
Definition record (w : who) (p : provider) : provider :=
  let pid := s32 (w_pid w) in
  let tid := s32 (w_tid w) in
  if (pid <=? 0) || (tid <=? 0) then p
  else
    let m := pids_of tid p in
    let same := match rbegin m with Some (_, q) => q =? pid | None => false end in
    Provider (aset Z.eqb tid (record_pid pid (w_time w) m) (pr_tids p)) (pr_conv p)
             (if same || existsb (Z.eqb pid) (pr_pids p) then pr_pids p else pid :: pr_pids p).

(** spe_tid_pid_provider.cc:23-50: one event. *)
Definition add_event (p : provider) (e : event) : provider :=
  let p := match ev_conv e with
           | Some c => Provider (pr_tids p) c (pr_pids p)
           | None => p
           end in
  let p := record (ev_fork e) p in
  let p := if 0 <? w_time (ev_sample e) then record (ev_sample e) p else p in
  match ev_info e with
  | Some w => if 0 <? w_time w then record w p else p
  | None => p
  end.

(** spe_tid_pid_provider.cc:20-50: the constructor. *)
Definition make_provider (events : list event) : provider := fold_left add_event events empty_provider.

(** spe_tid_pid_provider.cc:52-68 SpeTimestampToPerfTimestamp; a shift count of
    64 or more is undefined behaviour (excluded by the theorems). *)
Definition SpeTimestampToPerfTimestamp (c : time_conv) (cycles : Z) : Z :=
  let cycles := if tc_short c
                then u64 (tc_cycles c + Z.land (u64 (cycles - tc_cycles c)) (tc_mask c))
                else cycles in
  let quot := Z.shiftr cycles (tc_shift c) in
  let rem := Z.land cycles (u64 (u64 (Z.shiftl 1 (tc_shift c)) - 1)) in
  u64 (u64 (tc_zero c + u64 (quot * tc_mult c)) + Z.shiftr (u64 (rem * tc_mult c)) (tc_shift c)).

(** The fields of ArmSpeDecoder::Record that are read. *)
Record spe_record := SpeRecord { r_el1 : bool; r_el2 : bool; r_id : Z; r_timestamp : Z }.

(** spe_tid_pid_provider.cc:70-95 GetPid; None is the InvalidArgument error. *)
Definition GetPid (p : provider) (r : spe_record) : option Z :=
  if negb (r_el1 r) && negb (r_el2 r) then
    match pr_pids p with
    | [pid] => Some pid
    | _ => None
    end
  else
    let default_pid := s32 (r_id r) in
    match aget Z.eqb (s32 (r_id r)) (pr_tids p) with
    | None => Some default_pid
    | Some pids =>
        match zpred (SpeTimestampToPerfTimestamp (pr_conv p) (r_timestamp r)) pids with
        | None => Some default_pid
        | Some (_, pid) => Some pid
        end
    end.
