(** Specification vocabulary for the gcov primitives: sequences of values and
    the plain (unbuffered) byte stream. *)
From Verif Require Import Base GcovModel.

(** A value of one of the three kinds a gcov file consists of. *)
Inductive gval := VWord (v : Z) | VCounter (v : Z) | VString (s : list byte).
Inductive gkind := KWord | KCounter | KString.

Definition kind_of (v : gval) : gkind :=
  match v with VWord _ => KWord | VCounter _ => KCounter | VString _ => KString end.

(** Values of the C types; strings contain no NUL and their encoded payload is
    smaller than the reader's block (see the refutation for longer ones). *)
Definition gval_ok (version : Z) (v : gval) : Prop :=
  match v with
  | VWord v => 0 <= v < 2 ^ 32
  | VCounter v => 0 <= v < 2 ^ 64
  | VString s => Forall (fun b => 0 < b < 256) s /\
                 (if 2 <=? version then zlen s + 1 < 16384
                  else 4 * ((zlen s + 4) / 4) < 16384)
  end.

Definition write_val (version : Z) (v : gval) (out : list byte) : list byte :=
  match v with
  | VWord v => gcov_write_unsigned v out
  | VCounter v => gcov_write_counter v out
  | VString s => gcov_write_string version s out
  end.

Definition write_vals (version : Z) (vs : list gval) : list byte :=
  fold_left (fun out v => write_val version v out) vs [].

(** One read of the given kind; a null string is reported as [None]. *)
Definition read_val (version : Z) (k : gkind) (st : rstate) : outcome (option gval * rstate) :=
  match k with
  | KWord => obind (gcov_read_unsigned st) (fun '(v, st') => Ok (Some (VWord v), st'))
  | KCounter => obind (gcov_read_counter st) (fun '(v, st') => Ok (Some (VCounter v), st'))
  | KString => obind (gcov_read_string version st)
                 (fun '(r, st') => Ok (option_map VString r, st'))
  end.

Fixpoint read_vals (version : Z) (ks : list gkind) (st : rstate)
  : outcome (list (option gval) * rstate) :=
  match ks with
  | [] => Ok ([], st)
  | k :: ks' => obind (read_val version k st) (fun '(v, st1) =>
                obind (read_vals version ks' st1) (fun '(vs, st2) => Ok (v :: vs, st2)))
  end.

(** The plain byte stream: a read of n bytes takes the next n bytes; if there
    are fewer it fails and the stream is exhausted from then on. *)
Definition stream_read (n : Z) (s : list byte) : option (list byte) * list byte :=
  if zlen s <? n then (None, [])
  else (Some (firstn (Z.to_nat n) s), skipn (Z.to_nat n) s).

Fixpoint stream_reads (ns : list Z) (s : list byte) : list (option (list byte)) * list byte :=
  match ns with
  | [] => ([], s)
  | n :: ns' => let '(r, s1) := stream_read n s in
                let '(rs, s2) := stream_reads ns' s1 in (r :: rs, s2)
  end.

(** The same sequence of reads through the buffer. *)
Fixpoint buffered_reads (ns : list Z) (st : rstate)
  : outcome (list (option (list byte)) * rstate) :=
  match ns with
  | [] => Ok ([], st)
  | n :: ns' => obind (gcov_read_bytes n st) (fun '(r, st1) =>
                obind (buffered_reads ns' st1) (fun '(rs, st2) => Ok (r :: rs, st2)))
  end.

(** What is still to be delivered. *)
Definition pending (st : rstate) : list byte :=
  skipn (Z.to_nat (r_off st)) (r_buf st) ++ r_file st.
