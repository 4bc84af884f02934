(** C04-C06: the AutoFDO profile file. *)
From Verif Require Import Base GcovModel GcovSpec GcovProofs SrcOffsetModel SrcOffsetProofs SymbolModel SymbolSpec
  SymbolProofs ProfileSpec AfdoModel AfdoSpec AfdoProofs AfdoReadProofs AfdoEffProofs AfdoFileProofs AfdoWholeProofs.

(** ** C04 *)

(** Write any set of functions, read the file into any profile: the reader
    accepts it; every function that was emitted is merged into the profile
    ([read_into]) if the reader is told to update or the profile has no samples
    for it, and is ignored otherwise; every other function is untouched; the
    timestamp survives from version 3 on. *)
Theorem C04_afdo_round_trip : forall base orig version force threshold x tops bytes alloc m,
  0 <= version < 2 ^ 32 -> 0 <= alloc ->
  WriteToFile version threshold x tops = Ok bytes -> zlen bytes < 2 ^ 32 ->
  NoDup (map fst tops) ->
  (forall n s, In (n, s) tops -> emitted threshold s ->
     name_fits version n /\ plain n /\ fits version base orig s) ->
  extras_fit version x -> unshared m -> profile_ok m ->
  exists r,
    ReadFromFile base orig force alloc bytes m = Ok r /\
    af_version r = version /\
    (3 <= version -> af_summary r = Some (ex_summary x) /\ af_files r = ex_files x) /\
    af_ws r = map (fun '(n, c) => (n / 10 * 10, c)) (ex_ws x) /\
    unshared (af_map r) /\
    (forall n s, In (n, s) tops -> emitted threshold s ->
       let old := find_or_empty m n in
       exists s', sm_find (af_map r) n = Some s' /\
         s_ts s' = (if 3 <=? version then s_ts s else 0) /\
         (force = true \/ s_total old = 0 -> read_into old s s') /\
         (force = false -> s_total old <> 0 -> same_profile old s')) /\
    (forall n, (forall s, In (n, s) tops -> ~ emitted threshold s) ->
       sm_find (af_map r) n = sm_find m n).
Proof.
  intros base orig version force thr x tops bytes alloc m V A W L N Fit X U P.
  set (em := filter (fun ns => ShouldEmit thr (s_total (snd ns))) tops).
  assert (Iem : forall n s, In (n, s) em <-> In (n, s) tops /\ emitted thr s).
  { intros n s. unfold em. rewrite filter_In. cbn [snd]. rewrite <- emitted_ShouldEmit. reflexivity. }
  assert (Nem : NoDup (map fst em)).
  { unfold em. clear - N. induction tops as [|[n s] tops IH]; [constructor|]. cbn [map fst] in N.
    inversion N as [|? ? Nn N']; subst. cbn [filter snd]. destruct (ShouldEmit thr (s_total s)); [|auto].
    cbn [map fst]. constructor; auto. intros I. apply Nn. apply in_map_iff in I. destruct I as ([n' s'] & E & I).
    apply filter_In in I. apply in_map_iff. exists (n', s'). tauto. }
  destruct (whole base orig version force thr x tops bytes alloc m V A W L Nem) as
    (t & r & Et & Er & E1 & E2 & E3 & E4 & E5 & E6 & E7 & E8); auto.
  { intros n s I. apply Iem in I. destruct I. apply Fit; auto. }
  exists r. split; [exact Er|]. split; [exact E1|].
  split. { intros V3. destruct (Z.leb_spec 3 version); [|lia]. auto. }
  split; [exact E5|]. split; [exact E6|]. split.
  - intros n s I Em old. exists (after base orig version force old s n).
    destruct (Fit n s I Em) as (_ & _ & F).
    assert (O : sym_ok old).
    { unfold old, find_or_empty. destruct (sm_find m n) eqn:Ef; [eapply P; eauto|apply sym0_ok]. }
    split; [apply E8; apply Iem; auto|]. split; [apply after_ts|]. split.
    + intros T. apply after_read_into; auto. unfold taken. destruct T as [->|T]; [reflexivity|].
      rewrite T. cbn. apply orb_true_r.
    + intros -> T. unfold after, taken. cbn [orb].
      pose proof (sym_ok_total _ O) as B. unfold is_u64 in B.
      destruct (Z.ltb_spec 0 (s_total old)); [|lia]. cbn [negb].
      intros q l t0. unfold has_node, total_at, head_at, has_pos, count_at, ninst_at, has_target, target_at, pos_at.
      assert (Ed : node_at (set_ts (ts_read version s) old) q =
                match q with [] => Some (set_ts (ts_read version s) old) | _ => node_at old q end)
        by (destruct q, old; reflexivity).
      rewrite Ed. destruct q; [|repeat (split; [reflexivity|]); reflexivity].
      cbn [node_at]. destruct old. cbn. repeat (split; [reflexivity|]); reflexivity.
  - intros n H. apply E7. intros I. apply in_map_iff in I. destruct I as ([n' s] & E & I). cbn in E. subst.
    apply Iem in I. destruct I as [I J]. exact (H s I J).
Qed.
Print Assumptions C04_afdo_round_trip.

(** The round trip proper: into an empty profile. *)
Theorem C04_afdo_round_trip_empty : forall base orig version force threshold x tops bytes alloc,
  0 <= version < 2 ^ 32 -> 0 <= alloc ->
  WriteToFile version threshold x tops = Ok bytes -> zlen bytes < 2 ^ 32 ->
  NoDup (map fst tops) ->
  (forall n s, In (n, s) tops -> emitted threshold s ->
     name_fits version n /\ plain n /\ fits version base orig s) ->
  extras_fit version x ->
  exists r,
    ReadFromFile base orig force alloc bytes empty_map = Ok r /\
    (forall n s, In (n, s) tops -> emitted threshold s ->
       exists s', sm_find (af_map r) n = Some s' /\ same_in_file s s') /\
    (forall n, (forall s, In (n, s) tops -> ~ emitted threshold s) -> sm_find (af_map r) n = None).
Proof.
  intros base orig version force thr x tops bytes alloc V A W L N Fit X.
  assert (U : unshared empty_map) by (split; cbn; discriminate).
  assert (P : profile_ok empty_map) by (intros ? ?; cbn; discriminate).
  destruct (C04_afdo_round_trip base orig version force thr x tops bytes alloc empty_map V A W L N Fit X U P)
    as (r & Er & _ & _ & _ & _ & H & Hn).
  exists r. split; [exact Er|]. split; [|exact Hn].
  intros n s I Em. destruct (H n s I Em) as (s' & F & _ & R & _). exists s'. split; [exact F|].
  assert (E0 : find_or_empty empty_map n = sym0) by reflexivity.
  rewrite E0 in R. specialize (R (or_intror eq_refl)). destruct (Fit n s I Em) as (_ & _ & Fs).
  intros q l t. destruct (R q l t) as (A1 & A2 & A3 & A4 & A5 & A6 & A7).
  assert (Nq : node_at sym0 q = match q with [] => Some sym0 | _ => None end) by (destruct q; reflexivity).
  assert (Pq : pos_at sym0 q l = None) by (unfold pos_at; rewrite Nq; destruct q; reflexivity).
  split; [|split; [|split; [|split; [|split; [|split]]]]].
  - rewrite A1. unfold has_node. rewrite Nq. destruct q; split; intros [H1|H1]; auto; discriminate.
  - rewrite A2. unfold total_at. rewrite Nq. destruct q; reflexivity.
  - destruct (R [] l t) as (_ & _ & -> & _). inversion Fs; subst. cbn [s_head]. apply Z.mod_small. assumption.
  - rewrite A4. unfold has_pos at 1. rewrite Pq. reflexivity.
  - rewrite A5. unfold count_at. rewrite Pq. destruct (pos_at s q l) as [i|] eqn:Ei; [|reflexivity].
    apply Z.mod_small. clear - Fs Ei. revert q l i Ei.
    induction s as [h tot ts pos calls IH] using symbol_ind'. intros q l i Ei.
    inversion Fs as [? ? ? ? ? Hh Hts Np Nc Hp Hc]; subst.
    destruct q as [|k q]; unfold pos_at in Ei; cbn [node_at s_calls s_pos] in Ei.
    + apply (aget_In Z.eqb Z.eqb_spec) in Ei. apply (Hp l i Ei).
    + destruct (aget callsite_eqb k calls) as [c|] eqn:E; [|discriminate].
      apply (aget_In callsite_eqb callsite_eqb_spec) in E. destruct k as [lk nk].
      destruct (Hc lk nk c E) as (_ & _ & _ & Fc). exact (IH _ c E Fc q l i Ei).
  - rewrite A6. unfold has_target at 1. rewrite Pq. reflexivity.
  - rewrite A7. unfold has_target, target_at. rewrite Pq. destruct (pos_at s q l) as [i|]; [|reflexivity].
    unfold tget. destruct (aget name_eqb t (p_targets i)); reflexivity.
Qed.
Print Assumptions C04_afdo_round_trip_empty.

(** ** Examples *)
Definition ex_sum : summary :=
  {| su_total := 9; su_max := 5; su_max_fn := 9; su_num := 3; su_fns := 1; su_detail := [(999999, 1, 3)] |}.
Definition exx : extras := {| ex_files := [[102]]; ex_file_idx := fun _ => 0; ex_summary := ex_sum;
                              ex_ws := repeat (25, 3) 128 |}.
Definition nm_foo : name := [102; 111; 111].
Definition nm_bar : name := [98; 97; 114].
Definition ex_foo : symbol :=
  Sym 7 12 99 [(GenerateOffset 1 0, PInfo 5 1 [(nm_bar, 4); ([122], 1)]); (GenerateOffset 2 3, PInfo 1 1 [])]
    [((GenerateOffset 3 0, nm_bar), Sym 0 6 0 [(GenerateOffset 1 1, PInfo 6 1 [])] [])].
Definition ex_tops : list (name * symbol) := [(nm_foo, ex_foo); ([99], Sym 0 0 0 [] [])].

Definition bytes_of (v : Z) : list byte :=
  match WriteToFile v 0 exx ex_tops with Ok b => b | _ => [] end.

Lemma ex_fits v : 0 <= v < 2 ^ 32 -> forall n s, In (n, s) ex_tops -> emitted 0 s ->
  name_fits v n /\ plain n /\ fits v (fun d => d) (fun n => n) s.
Proof.
  intros V.
  assert (NF : forall n, zlen n < 20 -> Forall (fun b => 0 < b < 256) n -> name_fits v n).
  { intros n L F. split; [exact F|]. destruct (2 <=? v); [lia|].
    pose proof (Z.mul_div_le (zlen n + 4) 4). lia. }
  assert (PL : forall n, zlen n < 4 -> plain n).
  { intros n L pre suf I ->. rewrite zlen_app in L. pose proof (zlen_nonneg pre).
    assert (4 <= zlen suf); [|lia].
    repeat (destruct I as [<-|I]; [cbn; lia|]). destruct I. }
  assert (B1 : name_fits v nm_foo /\ plain nm_foo).
  { split; [apply NF; [cbn; lia|repeat constructor; cbn; lia]|apply PL; cbn; lia]. }
  assert (B2 : name_fits v nm_bar /\ plain nm_bar).
  { split; [apply NF; [cbn; lia|repeat constructor; cbn; lia]|apply PL; cbn; lia]. }
  assert (B3 : name_fits v [122] /\ plain [122]).
  { split; [apply NF; [cbn; lia|repeat constructor; cbn; lia]|apply PL; cbn; lia]. }
  assert (LF : forall a b, 0 <= a < 2 ^ 16 -> 0 <= b < 2 ^ 16 -> loc_fits (fun d => d) (GenerateOffset a b)).
  { intros a b Ha Hb. exists a, b. auto. }
  intros n s [E|[E|[]]] Em; inversion E; subst; [|unfold emitted in Em; cbn in Em; lia].
  split; [apply B1|]. split; [apply B1|].
  constructor.
  - unfold is_u64; lia.
  - unfold is_u64; lia.
  - vm_compute. repeat constructor; cbn; intuition discriminate.
  - vm_compute. repeat constructor; cbn; intuition discriminate.
  - intros l i [E1|[E1|[]]]; inversion E1; subst.
    + split; [apply LF; lia|]. split; [unfold is_u64; cbn; lia|]. split.
      * split; [repeat constructor; cbn; intuition discriminate|repeat constructor; cbn; lia].
      * intros a c [E2|[E2|[]]]; inversion E2; subst; (split; [|split]); (apply B2 || apply B3 || reflexivity).
    + split; [apply LF; lia|]. split; [unfold is_u64; cbn; lia|]. split.
      * split; [constructor|constructor].
      * intros a c [].
  - intros l a c [E1|[]]; inversion E1; subst. split; [apply LF; lia|]. split; [apply B2|]. split; [apply B2|].
    constructor; try (unfold is_u64; lia).
    + repeat constructor; cbn; intuition discriminate.
    + constructor.
    + intros l i [E2|[]]; inversion E2; subst. split; [apply LF; lia|]. split; [unfold is_u64; cbn; lia|].
      split; [split; constructor|]. intros ? ? [].
    + intros ? ? ? [].
Qed.
Lemma ex_extras v : 0 <= v < 2 ^ 32 -> extras_fit v exx.
Proof.
  intros V. split; [|split; [|split]].
  - constructor; [|constructor]. split; [repeat constructor; cbn; lia|]. destruct (2 <=? v); cbn; lia.
  - unfold summary_fits, is_u64. cbn [exx ex_summary ex_sum su_total su_max su_max_fn su_num su_fns su_detail].
    repeat (split; [lia|]). constructor; [|constructor]. lia.
  - reflexivity.
  - apply Forall_forall. intros [n c] I. apply repeat_spec in I. inversion I; subst. unfold is_u64. lia.
Qed.
Example C04_nonvacuous : forall v, v = 1 \/ v = 2 \/ v = 875575082 ->
  WriteToFile v 0 exx ex_tops = Ok (bytes_of v) /\ zlen (bytes_of v) < 2 ^ 32 /\
  NoDup (map fst ex_tops) /\
  (forall n s, In (n, s) ex_tops -> emitted 0 s ->
     name_fits v n /\ plain n /\ fits v (fun d => d) (fun n => n) s) /\
  emitted 0 ex_foo /\ extras_fit v exx.
Proof.
  intros v H. assert (V : 0 <= v < 2 ^ 32) by lia.
  split; [destruct H as [->|[->| ->]]; vm_compute; reflexivity|].
  split; [destruct H as [->|[->| ->]]; vm_compute; reflexivity|].
  split; [repeat constructor; cbn; intuition discriminate|].
  split; [exact (ex_fits v V)|]. split; [reflexivity|exact (ex_extras v V)].
Qed.

(** Reading the same file twice with the update flag doubles the counts but not
    the counts of the indirect call targets: they are assigned, not added. *)
Theorem C04_reading_twice_adds_everything_refuted :
  exists bytes r1 r2 s1 s2,
    WriteToFile 2 0 exx ex_tops = Ok bytes /\
    ReadFromFile (fun d => d) (fun n => n) true 0 bytes empty_map = Ok r1 /\
    ReadFromFile (fun d => d) (fun n => n) true 0 bytes (af_map r1) = Ok r2 /\
    sm_find (af_map r1) nm_foo = Some s1 /\ sm_find (af_map r2) nm_foo = Some s2 /\
    count_at s1 [] (GenerateOffset 1 0) = 5 /\ count_at s2 [] (GenerateOffset 1 0) = 10 /\
    target_at s1 [] (GenerateOffset 1 0) nm_bar = 4 /\ target_at s2 [] (GenerateOffset 1 0) nm_bar = 4.
Proof.
  pose (b := bytes_of 2). 
  pose (r1 := match ReadFromFile (fun d => d) (fun n => n) true 0 b empty_map with Ok r => r | _ =>
      {| af_version := 0; af_summary := None; af_files := []; af_names := []; af_map := empty_map; af_ws := [] |} end).
  pose (r2 := match ReadFromFile (fun d => d) (fun n => n) true 0 b (af_map r1) with Ok r => r | _ =>
      {| af_version := 0; af_summary := None; af_files := []; af_names := []; af_map := empty_map; af_ws := [] |} end).
  exists b, r1, r2, (find_or_empty (af_map r1) nm_foo), (find_or_empty (af_map r2) nm_foo).
  repeat (split; [vm_compute; reflexivity|]). vm_compute; reflexivity.
Qed.
Print Assumptions C04_reading_twice_adds_everything_refuted.
