(** C01, C02: gcov primitives. *)
From Verif Require Import Base GcovModel GcovSpec GcovProofs.

(** C01: whatever is written is read back, in order, nothing left over; for
    every version and every size the global buffer may already have. *)
Theorem C01_gcov_round_trip : forall version alloc vs,
  0 <= alloc -> Forall (gval_ok version) vs ->
  exists st', read_vals version (map kind_of vs) (gcov_open_read alloc (write_vals version vs))
              = Ok (map Some vs, st') /\ pending st' = [].
Proof. exact round_trip. Qed.
Print Assumptions C01_gcov_round_trip.

Example C01_nonvacuous :
  Forall (gval_ok 2) [VWord 4294967295; VString [102; 111; 111]; VCounter 18446744073709551615; VString []]
  /\ Forall (gval_ok 1) [VString [102; 111; 111; 255]; VWord 7].
Proof. split; repeat constructor; cbn; lia. Qed.

(** The claim without the length restriction is false: a NUL-free string whose
    encoded payload is at least 16384 bytes is written but aborts the reader
    (CHECK(bytes < GCOV_BLOCK_BYTE_SIZE), gcov.cc:177). *)
Theorem C01_gcov_round_trip_long_string_refuted :
  exists s, Forall (fun b => 0 < b < 256) s /\
            read_vals 2 [KString] (gcov_open_read 0 (write_vals 2 [VString s])) = Abort.
Proof.
  exists (repeat 65 (Z.to_nat 16383)). split; [|vm_compute; reflexivity].
  apply Forall_forall. intros x Hx. apply repeat_spec in Hx. lia.
Qed.
Print Assumptions C01_gcov_round_trip_long_string_refuted.

(** C02: reading through the buffer is reading the file, for every file, every
    initial buffer size and every sequence of read sizes below a block.  In
    particular a failed read (None) happens exactly when the file has fewer
    bytes left, and then nothing more is delivered. *)
Theorem C02_buffered_reads_are_stream_reads : forall alloc content ns,
  0 <= alloc -> Forall (fun n => 0 <= n < 16384) ns ->
  exists st', buffered_reads ns (gcov_open_read alloc content)
              = Ok (fst (stream_reads ns content), st') /\
              pending st' = snd (stream_reads ns content).
Proof.
  intros alloc content ns Ha Hns.
  destruct (buffered_reads_refine ns (gcov_open_read alloc content) (rwf_open _ _ Ha) Hns)
    as (st' & Hr & _ & Hp).
  rewrite pending_open in *. eauto.
Qed.
Print Assumptions C02_buffered_reads_are_stream_reads.

Example C02_nonvacuous :
  Forall (fun n => 0 <= n < 16384) [4; 8; 0; 16383; 4] /\
  fst (stream_reads [4; 2; 3; 1] [1;2;3;4;5;6;7;8]) = [Some [1;2;3;4]; Some [5;6]; None; None].
Proof. split; [repeat constructor; lia|vm_compute; reflexivity]. Qed.
