(** C05, C06: lengths and name indices of the AutoFDO file. *)
From Verif Require Import Base GcovModel GcovSpec GcovProofs SrcOffsetModel SymbolModel SymbolSpec
  SymbolProofs AfdoModel AfdoSpec AfdoProofs AfdoReadProofs AfdoFileProofs AfdoWholeProofs AfdoProps.

(** ** C05 *)

(** everything in front of the function section *)
Definition preamble (version : Z) (x : extras) (t : list name) : list gval :=
  [VWord 1734567009; VWord version; VWord 0]
  ++ (if 3 <=? version then summary_vals (ex_summary x) else [])
  ++ name_vals version (ex_files x) (ex_file_idx x) t.

(** The file is preamble, function tag, length word, section, module tag, ...;
    the section is as long (in words) as the length says before version 3.  From
    version 3 on it is longer, by the two words of every function's timestamp. *)
Theorem C05_function_section_length : forall version threshold x tops bytes,
  WriteToFile version threshold x tops = Ok bytes -> zlen bytes < 2 ^ 32 ->
  exists t len section rest,
    bytes = write_vals version (preamble version x t)
            ++ le32 2885681152 ++ le32 len ++ section ++ le32 2919235584 ++ rest /\
    0 <= len < 2 ^ 32 /\
    zlen section = 4 * len
      + (if 3 <=? version
         then 8 * zlen (filter (fun ns => threshold <? signed64 (s_total (snd ns))) tops) else 0).
Proof.
  intros version thr x tops bytes W L. unfold WriteToFile, write_file in W.
  pose proof (start_length version) as SL. pose proof (start_num_functions thr tops) as SN.
  destruct (string_table (start thr tops)) as [t| |] eqn:Et; cbn [obind] in W; try discriminate.
  specialize (SL t thr tops).
  set (evs := start thr tops) in *.
  destruct (events_vals version t evs) as [body| |] eqn:Eb; cbn [obind] in W; try discriminate.
  apply events_vals_inv in Eb. subst body.
  pose proof (f_equal (fun o => match o with Ok b => b | _ => [] end) W) as Hb. cbn beta iota in Hb. clear W.
  exists t, (lengther_length evs + 1),
    (le32 (u32 (lengther_num_functions evs)) ++ write_vals version (flat_map (evals version t) evs)),
    (write_vals version ([VWord 0; VWord 0] ++ working_set_vals (ex_ws x))).
  pose proof (zlen_write_vals version _ (events_no_string version t evs)) as ZB.
  assert (NN : 0 <= lengther_num_functions evs) by (rewrite SN; apply zlen_nonneg).
  assert (LL : 0 <= lengther_length evs).
  { unfold lengther_length. unfold lengther_num_functions in NN. rewrite fold_sum in *.
    assert (0 <= fold_right (fun e b => event_length e + b) 0 evs); [|unfold lengther_num_functions; rewrite fold_sum; lia].
    assert (E1 : forall e, 0 <= event_length e).
    { intros [n s|s|[l n]]; cbn [event_length]; try lia.
      assert (0 <= fold_right (fun '(_, i) a => zlen (p_targets i) * 5 + a) 0 (s_pos s)).
      { induction (s_pos s) as [|[k i] ps IH]; cbn [fold_right]; [lia|]. pose proof (zlen_nonneg (p_targets i)). lia. }
      pose proof (zlen_nonneg (s_pos s)). pose proof (zlen_nonneg (s_calls s)). lia. }
    clear - E1. induction evs as [|e evs IH]; cbn [fold_right]; [lia|]. specialize (E1 e). lia. }
  assert (B : lengther_length evs + 1 < 2 ^ 32).
  { rewrite !write_vals_app in Hb. subst bytes. rewrite !zlen_app in L. rewrite ZB, SL in L.
    repeat match type of L with context [zlen ?l] =>
      lazymatch goal with H : 0 <= zlen l |- _ => fail | _ => pose proof (zlen_nonneg l) end end.
    assert (4 <= zlen (write_vals version (function_header evs))).
    { unfold function_header. rewrite !write_vals_cons, !zlen_app.
      match goal with |- 4 <= zlen ?a + (zlen ?b + (zlen ?c + zlen ?d)) =>
        change (zlen a) with 4; pose proof (zlen_nonneg b); pose proof (zlen_nonneg c); pose proof (zlen_nonneg d) end. lia. }
    destruct (3 <=? version); lia. }
  split; [|split].
  - subst bytes. unfold preamble.
    rewrite !write_vals_app. unfold function_header, module_vals. rewrite !write_vals_cons.
    cbn [write_val]. unfold gcov_write_unsigned. cbn [app].
    assert (u32 (u32 (lengther_length evs + 1)) = lengther_length evs + 1) as ->.
    { unfold u32, w32. rewrite !Z.mod_small; lia. }
    assert (u32 (u32 (lengther_num_functions evs)) = u32 (lengther_num_functions evs)) as ->.
    { unfold u32, w32. rewrite Z.mod_mod; lia. }
    change (write_vals version []) with (@nil byte). rewrite ?app_nil_r, <- ?app_assoc. reflexivity.
  - lia.
  - rewrite zlen_app, ZB, SL, zlen_le32.
    assert (lengther_num_functions evs = zlen (filter (fun ns => thr <? signed64 (s_total (snd ns))) tops)) as <-.
    { rewrite SN. reflexivity. }
    destruct (3 <=? version); lia.
Qed.
Print Assumptions C05_function_section_length.

(** So before version 3 a consumer that skips the section by its length lands on
    the next tag. *)
Corollary C05_skip_lands_on_next_tag : forall version threshold x tops bytes,
  version < 3 -> WriteToFile version threshold x tops = Ok bytes -> zlen bytes < 2 ^ 32 ->
  exists t len (rest : list byte),
    let p := zlen (write_vals version (preamble version x t)) in
    firstn 8 (skipn (Z.to_nat p) bytes) = le32 2885681152 ++ le32 len /\
    firstn 4 (skipn (Z.to_nat (p + 8 + 4 * len)) bytes) = le32 2919235584 /\
    zlen bytes = p + 8 + 4 * len + 4 + zlen rest.
Proof.
  intros version thr x tops bytes V W L.
  destruct (C05_function_section_length _ _ _ _ _ W L) as (t & len & sec & rest & E & B & Z).
  exists t, len, rest. cbv zeta. set (pre := write_vals version (preamble version x t)) in *.
  destruct (Z.leb_spec 3 version); [lia|]. rewrite Z.add_0_r in Z.
  assert (Sk : forall (a b : list byte), skipn (Z.to_nat (zlen a)) (a ++ b) = b).
  { intros a b. unfold zlen. rewrite Nat2Z.id, skipn_app, skipn_all, Nat.sub_diag. reflexivity. }
  split; [|split].
  - rewrite E, Sk. reflexivity.
  - assert (p8 : zlen pre + 8 + 4 * len = zlen (pre ++ le32 2885681152 ++ le32 len ++ sec)).
    { rewrite !zlen_app, !zlen_le32. lia. }
    rewrite p8, E.
    replace (pre ++ le32 2885681152 ++ le32 len ++ sec ++ le32 2919235584 ++ rest)
      with ((pre ++ le32 2885681152 ++ le32 len ++ sec) ++ le32 2919235584 ++ rest) by (rewrite <- !app_assoc; reflexivity).
    rewrite Sk. reflexivity.
  - rewrite E, !zlen_app, !zlen_le32. lia.
Qed.
Print Assumptions C05_skip_lands_on_next_tag.

Definition declared (bytes : list byte) (at_ : Z) : Z := get32 (firstn 4 (skipn (Z.to_nat at_) bytes)).

(** With the tool's default --gcov_version (0x3430372a) the claim is false. *)
Theorem C05_default_version_refuted :
  exists x tops bytes t len section rest,
    WriteToFile 875575082 0 x tops = Ok bytes /\
    bytes = write_vals 875575082 (preamble 875575082 x t)
            ++ le32 2885681152 ++ le32 len ++ section ++ le32 2919235584 ++ rest /\
    zlen section = 4 * len + 8.
Proof.
  destruct (C05_function_section_length 875575082 0 exx ex_tops (bytes_of 875575082)) as (t & len & sec & rest & E & B & Z).
  - vm_compute. reflexivity.
  - vm_compute. reflexivity.
  - exists exx, ex_tops, (bytes_of 875575082), t, len, sec, rest. split; [vm_compute; reflexivity|]. split; [exact E|].
    rewrite Z. vm_compute (zlen (filter _ _)). reflexivity.
Qed.
Print Assumptions C05_default_version_refuted.

(** The length of the name table section is right before version 2 ... *)
Lemma rewrite_length n : length (rewrite_name n) = length n.
Proof.
  unfold rewrite_name. repeat match goal with |- context [if ?b then _ else _] => destruct b end;
  rewrite ?length_set_nth; reflexivity.
Qed.
Theorem C05_name_table_length : forall version files file_idx t,
  version < 2 ->
  exists len body,
    write_vals version (name_vals version files file_idx t) = le32 2852126720 ++ le32 (u32 len) ++ body /\
    zlen body = 4 * len.
Proof.
  intros version files fi t V. exists (name_table_length t).
  unfold name_vals. destruct (Z.leb_spec 3 version); [lia|]. cbn [app].
  rewrite !write_vals_cons. cbn [write_val]. unfold gcov_write_unsigned. cbn [app].
  assert (u32 (u32 (name_table_length t)) = u32 (name_table_length t)) as ->.
  { unfold u32, w32. rewrite Z.mod_mod; lia. }
  eexists. split; [reflexivity|].
  rewrite zlen_app, zlen_le32. unfold name_table_length. 
  assert (FS : fold_left (fun a n => a + (zlen n + 4) / 4 + 1) t 0 = fold_left (fun a n => a + ((zlen n + 4) / 4 + 1)) t 0).
  { generalize 0. induction t as [|a t IH]; intros z; cbn [fold_left]; [reflexivity|].
    rewrite IH. f_equal. lia. }
  rewrite FS, (fold_sum (fun n : name => (zlen n + 4) / 4 + 1)).
  match goal with |- 4 + zlen ?bb = _ => assert (zlen bb = 4 * fold_right (fun e b => (zlen e + 4) / 4 + 1 + b) 0 t) as -> end; [|cbv beta; match goal with |- 4 + 4 * ?u = 4 * (0 + ?v + 1) => change u with v; lia end].
  clear FS. induction t as [|n t IH]; [reflexivity|]. cbn [flat_map app fold_right].
  rewrite write_vals_cons, zlen_app, IH.
  assert (zlen (write_val version (VString (rewrite_name n)) []) = 4 * ((zlen n + 4) / 4 + 1)) as ->; [|lia].
  cbn [write_val]. unfold gcov_write_string. destruct (Z.leb_spec 2 version); [lia|]. cbn zeta. cbn [app].
  rewrite !zlen_app, zlen_le32.
  assert (@zlen byte (rewrite_name n) = @zlen byte n) as -> by (unfold zlen; rewrite rewrite_length; reflexivity).
  rewrite Z.shiftr_div_pow2 by lia. change (2 ^ 2) with 4.
  unfold zlen. rewrite repeat_length. unfold byte.
  set (a := Z.of_nat (@length Z n)). assert (0 <= a) by (unfold a; lia).
  pose proof (Z.div_mod (a + 4) 4 ltac:(lia)). pose proof (Z.mod_pos_bound (a + 4) 4 ltac:(lia)).
  rewrite Z2Nat.id; unfold name, byte; fold a; lia.
Qed.
Print Assumptions C05_name_table_length.
Example C05_nonvacuous :
  WriteToFile 2 0 exx ex_tops = Ok (bytes_of 2) /\ zlen (bytes_of 2) < 2 ^ 32 /\ zlen (bytes_of 2) = 1743 /\
  WriteToFile 1 0 exx ex_tops = Ok (bytes_of 1).
Proof. repeat (split; [vm_compute; reflexivity|]). vm_compute; reflexivity. Qed.

(** ... and wrong from version 2 on (strings are not padded, file names and file
    indices are not counted); the module section declares 0 words but has 1. *)
Theorem C05_name_table_length_refuted :
  forall version, version = 2 \/ version = 3 ->
  exists files fi t len body, 0 <= len < 2 ^ 32 /\
    write_vals version (name_vals version files fi t) = le32 2852126720 ++ le32 len ++ body /\ zlen body <> 4 * len.
Proof.
  intros version H. exists [[102]], (fun _ => 0), [[]; [102]], 5,
    (skipn 8 (write_vals version (name_vals version [[102]] (fun _ => 0) [[]; [102]]))).
  split; [lia|]. destruct H as [-> | ->]; (split; [vm_compute; reflexivity|vm_compute; discriminate]).
Qed.
Print Assumptions C05_name_table_length_refuted.
Theorem C05_module_length_refuted : forall version,
  exists body, write_vals version module_vals = le32 2919235584 ++ le32 0 ++ body /\ zlen body = 4.
Proof. intros v. exists (le32 0). split; reflexivity. Qed.
Print Assumptions C05_module_length_refuted.
Theorem C05_working_set_length : forall version ws, length ws = 128%nat ->
  exists body, write_vals version (working_set_vals ws) = le32 2936012800 ++ le32 384 ++ body /\ zlen body = 4 * 384.
Proof.
  intros v ws L. unfold working_set_vals. cbn [app]. rewrite !write_vals_cons. eexists. split; [reflexivity|].
  rewrite zlen_write_vals.
  - f_equal. replace 384 with (3 * zlen ws) by (unfold zlen; rewrite L; reflexivity). clear L.
    induction ws as [|[n c] ws IH]; [reflexivity|]. cbn [flat_map]. rewrite words_app, IH, zlen_cons.
    change (words [VWord (n / 10); VCounter c]) with 3. lia.
  - clear L. induction ws as [|[n c] ws IH]; cbn [flat_map]; [constructor|].
    cbn [app]. constructor; [cbn; lia|]. constructor; [cbn; lia|]. exact IH.
Qed.
Print Assumptions C05_working_set_length.

(** ** C06 *)

Lemma ev_names_mentions e n : In n (ev_names e) <-> mentions e n.
Proof.
  destruct e as [a s|s|[l a]]; cbn [ev_names mentions In].
  - intuition.
  - rewrite in_flat_map. split.
    + intros ([l i] & I1 & I2). apply in_map_iff in I2. destruct I2 as ([a c] & <- & I2). eauto.
    + intros (l & i & c & I1 & I2). exists (l, i). split; auto. apply in_map_iff. exists (n, c). auto.
  - intuition.
Qed.

(** The table holds the empty string and every name that is referred to, each
    once, and a name's index is its position: indices are dense and distinct. *)
Theorem C06_table : forall evs t, string_table evs = Ok t ->
  NoDup t /\ nth_error t 0 = Some [] /\
  (forall n, In n t <-> n = [] \/ exists e, In e evs /\ mentions e n) /\
  (forall n i, GetStringIndex t n = Some i <-> resolves t i n) /\
  (forall i, 0 <= i < zlen t -> exists n, GetStringIndex t n = Some i).
Proof.
  intros evs t E. destruct (string_table_spec _ _ E) as (S1 & S2 & S3 & S4).
  assert (N : NoDup t) by (apply sorted_NoDup; auto).
  assert (R : forall n i, GetStringIndex t n = Some i <-> resolves t i n).
  { intros n i. pose proof (GetStringIndex_spec t n) as G. split.
    - intros H. rewrite H in G. exact G.
    - intros [B H]. destruct (GetStringIndex t n) as [j|].
      + destruct G as [Bj Hj]. f_equal.
        assert (Z.to_nat i = Z.to_nat j); [|lia].
        apply (proj1 (NoDup_nth_error t) N); [|congruence]. apply nth_error_Some. congruence.
      + exfalso. apply G. eapply nth_error_In; eauto. }
  split; [exact N|]. split; [destruct t; cbn in *; congruence|]. split.
  - intros n. rewrite S2. apply or_iff_compat_l. rewrite in_flat_map. split.
    + intros (e & I & J). exists e. rewrite <- ev_names_mentions. auto.
    + intros (e & I & J). exists e. rewrite ev_names_mentions. auto.
  - split; [exact R|]. intros i B. destruct (nth_error t (Z.to_nat i)) as [n|] eqn:X.
    + exists n. apply R. split; auto.
    + exfalso. apply nth_error_None in X. unfold zlen in B. lia.
Qed.
Print Assumptions C06_table.

(** In the written file every index resolves, in the table of that file, to the
    name it stands for, and no function or callee gets the index of the empty
    string. *)
Theorem C06_indices_resolve : forall version threshold x tops vs,
  write_file version threshold x tops = Ok vs ->
  exists t bodies,
    string_table (start threshold tops) = Ok t /\
    Forall2 (encodes version t) (start threshold tops) bodies /\
    vs = preamble version x t ++ function_header (start threshold tops) ++ concat bodies
         ++ module_vals ++ working_set_vals (ex_ws x).
Proof.
  intros version thr x tops vs W. unfold write_file in W. set (evs := start thr tops) in *.
  destruct (string_table evs) as [t| |] eqn:Et; cbn [obind] in W; try discriminate.
  destruct (events_vals version t evs) as [body| |] eqn:Eb; cbn [obind] in W; try discriminate.
  apply events_vals_inv in Eb. subst body.
  pose proof (f_equal (fun o => match o with Ok b => b | _ => [] end) W) as Hb. cbn beta iota in Hb. clear W.
  destruct (C06_table _ _ Et) as (N & Z0 & Tin & Ri & _).
  destruct (string_table_spec _ _ Et) as (_ & _ & Ne & Hd).
  exists t, (map (evals version t) evs). split; [reflexivity|].
  assert (IX : forall n, In n t -> resolves t (ix t n) n).
  { intros n I. unfold ix. pose proof (GetStringIndex_spec t n) as G. destruct (GetStringIndex t n); [exact G|tauto]. }
  split.
  - assert (H : forall e, In e evs -> encodes version t e (evals version t e)).
    { intros e I.
      assert (M : forall n, mentions e n -> In n t) by (intros n Mn; apply Tin; right; eauto).
      assert (NE : forall n, In n (ev_function_names e) -> In n t -> ix t n <> 0).
      { intros n J K. destruct (nonzero_index_ok t n (Ne e n I J) K Hd). lia. }
      destruct e as [n s|s|[l n]]; cbn [evals].
      - constructor; [apply IX, M; reflexivity|]. apply NE; [cbn; auto|apply M; reflexivity].
      - assert (P : exists pv, Forall2 (pos_encodes t) (s_pos s) pv /\ pvals t (s_pos s) = concat pv).
        { cbn [mentions] in M. clear - M IX. induction (s_pos s) as [|[l i] ps IH].
          - exists []. split; [constructor|reflexivity].
          - destruct IH as (pv & F & E). { intros n (l' & i' & c & I1 & I2). apply M. exists l', i', c. split; [right|]; auto. }
            assert (T : exists tv, Forall2 (target_encodes t) (p_targets i) tv /\ tvals t (p_targets i) = concat tv).
            { assert (M' : forall n c, In (n, c) (p_targets i) -> In n t).
              { intros n c I. apply M. exists l, i, c. split; [left|]; auto. }
              clear - M' IX. induction (p_targets i) as [|[n c] ts IH].
              - exists []. split; [constructor|reflexivity].
              - destruct IH as (tv & F & E). { intros; eapply M'; right; eauto. }
                exists ([VWord 7; VCounter (ix t n); VCounter c] :: tv). split.
                + constructor; [|exact F]. exists (ix t n). split; [|reflexivity]. apply IX. eapply M'. left; eauto.
                + cbn [tvals flat_map concat]. unfold tvals in E. rewrite E. reflexivity. }
            destruct T as (tv & Ft & Et).
            exists ((VWord (GenerateCompressedOffset l) :: VWord (zlen (p_targets i)) :: VCounter (p_count i) :: concat tv) :: pv).
            split.
            + constructor; [|exact F]. exists tv. split; [exact Ft|reflexivity].
            + cbn [pvals flat_map concat]. unfold pvals in E. rewrite E, Et. reflexivity. }
        destruct P as (pv & F & ->). constructor. exact F.
      - constructor; [apply IX, M; reflexivity|]. apply NE; [cbn; auto|apply M; reflexivity]. }
    clear - H. induction evs as [|e evs IH]; [constructor|]. cbn [map]. constructor; [apply H; left; auto|].
    apply IH. intros; apply H; right; auto.
  - rewrite <- Hb. unfold preamble. rewrite <- flat_map_concat_map, <- !app_assoc. reflexivity.
Qed.
Print Assumptions C06_indices_resolve.

(** The writer succeeds exactly when every emitted function and everything
    inlined into it has a name. *)
Lemma traverse_named s : callees_named s <->
  forall e n, In e (traverse s) -> In n (ev_function_names e) -> n <> [].
Proof.
  induction s as [h tot ts pos calls IH] using symbol_ind'. cbn [callees_named traverse].
  assert (G : forall l, (forall k c, In (k, c) l -> In (k, c) calls) ->
    ((fix go l := match l with [] => True | (k, c) :: l' => snd k <> [] /\ callees_named c /\ go l' end) l <->
     forall e n, In e (flat_map (fun '(k, c) => ECall k :: traverse c) l) -> In n (ev_function_names e) -> n <> [])).
  { induction l as [|[k c] l IHl]; intros Incl; [split; auto; intros _ ? ? []|].
    rewrite IHl by (intros; apply Incl; right; auto). rewrite (IH k c) by (apply Incl; left; auto). cbn [flat_map]. split.
    - intros (A & B & C) e n I J. apply in_app_or in I. destruct I as [[<-|I]|I]; eauto.
      destruct k as [lk nk]. cbn in J. destruct J as [<-|[]]. exact A.
    - intros H. split; [|split].
      + apply (H (ECall k)); [left; auto|]. destruct k; cbn; auto.
      + intros e n I. apply H. apply in_or_app. left. right. exact I.
      + intros e n I. apply H. apply in_or_app. right. exact I. }
  rewrite (G calls (fun k c I => I)). split.
  - intros H e n [<-|I] J; [destruct J|]. eauto.
  - intros H e n I. apply H. right. exact I.
Qed.
Theorem C06_writer_succeeds : forall version threshold x tops,
  (exists bytes, WriteToFile version threshold x tops = Ok bytes) <->
  (forall n s, In (n, s) tops -> emitted threshold s -> n <> [] /\ callees_named s).
Proof.
  intros version thr x tops.
  assert (E : (forall n s, In (n, s) tops -> emitted thr s -> n <> [] /\ callees_named s) <->
              (forall e n, In e (start thr tops) -> In n (ev_function_names e) -> n <> [])).
  { rewrite start_filter. split.
    - intros H e n I J. apply in_flat_map in I. destruct I as ([a s] & I1 & I2). apply filter_In in I1.
      destruct I1 as [I1 Em]. cbn [snd] in Em. apply emitted_ShouldEmit in Em. destruct (H a s I1 Em) as [A B].
      destruct I2 as [<-|I2]; [cbn in J; destruct J as [<-|[]]; exact A|].
      rewrite traverse_named in B. eauto.
    - intros H n s I Em. apply emitted_ShouldEmit in Em.
      assert (Sub : forall e, In e (ETop n s :: traverse s) -> In e (flat_map (fun '(n, s) => ETop n s :: traverse s)
               (filter (fun ns => ShouldEmit thr (s_total (snd ns))) tops))).
      { intros e Ie. apply in_flat_map. exists (n, s). split; [|exact Ie]. apply filter_In. auto. }
      split; [apply (H (ETop n s)); [apply Sub; left; auto|cbn; auto]|].
      apply traverse_named. intros e a Ie. apply H. apply Sub. right; auto. }
  rewrite E. unfold WriteToFile, write_file. set (evs := start thr tops). split.
  - intros [bytes W]. destruct (string_table evs) as [t| |] eqn:Et; cbn [obind] in W; try discriminate.
    apply string_table_spec in Et. apply Et.
  - intros H. unfold string_table. rewrite all_names_ok by exact H. cbn [obind].
    assert (Et : string_table evs = Ok (fold_left (fun t n => sinsert n t) (flat_map ev_names evs) [[]])).
    { unfold string_table. rewrite all_names_ok by exact H. reflexivity. }
    destruct (string_table_spec _ _ Et) as (_ & Tin & _ & Hd).
    rewrite events_vals_ok; [cbn [obind]; eauto|exact Hd|exact H|].
    intros e n I J. apply Tin. right. apply in_flat_map. eauto.
Qed.
Print Assumptions C06_writer_succeeds.

Example C06_nonvacuous :
  string_table (start 0 ex_tops) = Ok [[]; nm_bar; nm_foo; [122]] /\
  (forall n s, In (n, s) ex_tops -> emitted 0 s -> n <> [] /\ callees_named s).
Proof.
  split; [vm_compute; reflexivity|]. intros n s [E|[E|[]]] Em; inversion E; subst.
  - split; [discriminate|]. cbn. repeat (split; [discriminate|]); auto.
  - split; [discriminate|]. exact I.
Qed.

(** The names in the file are not always distinct: a name ending in C4Ev is
    written with C2Ev and then collides with the real C2Ev name, so that two
    functions share one name in the file. *)
Theorem C06_written_names_distinct_refuted :
  exists tops t a b, string_table (start 0 tops) = Ok t /\ In a t /\ In b t /\ a <> b /\
    rewrite_name a = rewrite_name b.
Proof.
  pose (s := Sym 0 5 0 [] []).
  pose (a := [95; 90; 78; 49; 65; 67; 52; 69; 118] : name). pose (b := [95; 90; 78; 49; 65; 67; 50; 69; 118] : name).
  exists [(a, s); (b, s)], [[]; b; a], a, b. split; [vm_compute; reflexivity|].
  split; [cbn; auto|]. split; [cbn; auto|]. split; [discriminate|]. vm_compute. reflexivity.
Qed.
Print Assumptions C06_written_names_distinct_refuted.

(** File names: after any sequence of AddFileName calls the file of a symbol is
    the one given last, its index is valid, and no file name is listed twice. *)
Definition add_files (l : list (name * name)) : fimap :=
  fold_left (fun f '(sym, file) => AddFileName f sym file) l fimap0.
Fixpoint last_file (sym : name) (l : list (name * name)) (d : option name) : option name :=
  match l with
  | [] => d
  | (s, f) :: l' => last_file sym l' (if name_eqb sym s then Some f else d)
  end.

Definition fi_inv (f : fimap) : Prop :=
  NoDup (fi_names f) /\
  (forall file i, aget name_eqb file (fi_file_map f) = Some i <-> resolves (fi_names f) i file) /\
  (forall sym i, aget name_eqb sym (fi_name_map f) = Some i -> 0 <= i < zlen (fi_names f)).

Lemma AddFileName_inv f sym file : fi_inv f -> fi_inv (AddFileName f sym file) /\
  (forall s, exists i, GetFileName (AddFileName f sym file) s = (if name_eqb s sym then Some file else GetFileName f s)
     /\ (s = sym -> aget name_eqb s (fi_name_map (AddFileName f sym file)) = Some i)) /\
  (forall x, In x (fi_names (AddFileName f sym file)) <-> x = file \/ In x (fi_names f)).
Proof.
  intros (N & R & B). unfold AddFileName. destruct (aget name_eqb file (fi_file_map f)) as [i|] eqn:E.
  - pose proof (proj1 (R _ _) E) as [Bi Ni]. unfold fi_inv, GetFileName. cbn [fi_names fi_name_map fi_file_map].
    split; [split; [exact N|split; [exact R|]]|split].
    + intros s j. rewrite aget_aset by apply name_eqb_spec. destruct (name_eqb s sym); [|apply B].
      intros H; inversion H; subst. exact Bi.
    + intros s. exists i. rewrite aget_aset by apply name_eqb_spec. destruct (name_eqb_spec s sym) as [->|D].
      * split; [exact Ni|auto].
      * split; [reflexivity|congruence].
    + intros x. split; auto. intros [->|H]; auto. eapply nth_error_In; eauto.
  - assert (Nf : ~ In file (fi_names f)).
    { intros I. apply In_nth_error in I. destruct I as [k K].
      assert (aget name_eqb file (fi_file_map f) = Some (Z.of_nat k)); [|congruence].
      apply R. split; [|rewrite Nat2Z.id; exact K].
      assert (k < length (fi_names f))%nat by (apply nth_error_Some; congruence). unfold zlen. lia. }
    unfold fi_inv, GetFileName. cbn [fi_names fi_name_map fi_file_map].
    pose proof (zlen_nonneg (fi_names f)) as P0.
    assert (Z1 : zlen (fi_names f ++ [file]) = zlen (fi_names f) + 1) by (rewrite zlen_app; reflexivity).
    assert (NE : forall i, 0 <= i < zlen (fi_names f) -> nth_error (fi_names f ++ [file]) (Z.to_nat i) = nth_error (fi_names f) (Z.to_nat i)).
    { intros i Bi. apply nth_error_app1. unfold zlen in Bi. lia. }
    assert (NL : nth_error (fi_names f ++ [file]) (Z.to_nat (zlen (fi_names f))) = Some file).
    { unfold zlen. rewrite Nat2Z.id, nth_error_app2, Nat.sub_diag by lia. reflexivity. }
    split; [split; [|split]|split].
    + apply NoDup_app_snoc || idtac. clear - N Nf. induction (fi_names f) as [|a l IH]; cbn; [repeat constructor; auto|].
      inversion N as [|? ? Na N']; subst. constructor.
      * intros I. apply in_app_or in I. destruct I as [I|[->|[]]]; [auto|]. apply Nf. left; auto.
      * apply IH; auto. intros I; apply Nf; right; auto.
    + intros x i. rewrite aget_aset by apply name_eqb_spec. destruct (name_eqb_spec x file) as [->|D].
      * split.
        -- intros H; inversion H; subst. split; [lia|exact NL].
        -- intros [Bi Hi]. f_equal. destruct (Z.eq_dec i (zlen (fi_names f))); [auto|].
           exfalso. rewrite NE in Hi by lia. apply Nf. eapply nth_error_In; eauto.
      * rewrite R. unfold resolves. split.
        -- intros [Bi Hi]. split; [lia|]. rewrite NE by lia. exact Hi.
        -- intros [Bi Hi]. destruct (Z.eq_dec i (zlen (fi_names f))) as [->|].
           ++ rewrite NL in Hi. congruence.
           ++ rewrite NE in Hi by lia. split; [lia|exact Hi].
    + intros s j. rewrite aget_aset by apply name_eqb_spec. destruct (name_eqb s sym).
      * intros H; inversion H; subst. lia.
      * intros H. apply B in H. lia.
    + intros s. exists (zlen (fi_names f)). rewrite aget_aset by apply name_eqb_spec. destruct (name_eqb_spec s sym) as [->|D].
      * split; [exact NL|auto].
      * split; [|congruence]. destruct (aget name_eqb s (fi_name_map f)) as [j|] eqn:Ej; [|reflexivity].
        apply NE. eapply B; eauto.
    + intros x. rewrite in_app_iff. cbn [In]. intuition.
Qed.

Theorem C06_file_names : forall l,
  let f := add_files l in
  NoDup (fi_names f) /\
  (forall x, In x (fi_names f) <-> In x (map snd l)) /\
  (forall sym, match last_file sym l None with
     | Some file => GetFileName f sym = Some file /\ resolves (fi_names f) (GetFileIndex f sym) file
     | None => GetFileName f sym = Some [] /\ GetFileIndex f sym = -1
     end).
Proof.
  intros l.
  assert (G : forall l f0 (d : name -> option name), fi_inv f0 ->
    (forall sym, match d sym with
       | Some file => GetFileName f0 sym = Some file /\ aget name_eqb sym (fi_name_map f0) <> None
       | None => aget name_eqb sym (fi_name_map f0) = None end) ->
    let f := fold_left (fun f '(sym, file) => AddFileName f sym file) l f0 in
    fi_inv f /\ (forall x, In x (fi_names f) <-> In x (fi_names f0) \/ In x (map snd l)) /\
    (forall sym, match last_file sym l (d sym) with
       | Some file => GetFileName f sym = Some file /\ aget name_eqb sym (fi_name_map f) <> None
       | None => aget name_eqb sym (fi_name_map f) = None end)).
  { clear l. induction l as [|[s file] l IH]; intros f0 d Inv D f.
    - cbn in f. subst f. split; [exact Inv|]. split; [|exact D]. intros x. cbn. tauto.
    - cbn [fold_left] in f. destruct (AddFileName_inv f0 s file Inv) as (I1 & G1 & N1).
      destruct (IH (AddFileName f0 s file) (fun sym => if name_eqb sym s then Some file else d sym) I1) as (A & B & C).
      { intros sym. destruct (G1 sym) as (i & Gi & Ai). destruct (name_eqb_spec sym s) as [->|Ds].
        - split; [exact Gi|]. rewrite Ai by reflexivity. discriminate.
        - assert (K : aget name_eqb sym (fi_name_map (AddFileName f0 s file)) = aget name_eqb sym (fi_name_map f0)).
          { unfold AddFileName. destruct (aget name_eqb file (fi_file_map f0)); cbn [fi_name_map];
            rewrite aget_aset by apply name_eqb_spec; destruct (name_eqb_spec sym s); congruence. }
          specialize (D sym). destruct (d sym).
          + rewrite Gi, K. exact D.
          + rewrite K. exact D. }
      fold f in A, B, C. split; [exact A|]. split; [|exact C].
      intros x. rewrite B, N1. cbn [map snd In]. intuition. }
  destruct (G l fimap0 (fun _ => None)) as (A & B & C).
  { split; [constructor|]. split; [|cbn; discriminate]. intros file i. cbn. split; [discriminate|].
    intros [Bi _]. cbn in Bi. lia. }
  { intros sym. reflexivity. }
  fold (add_files l) in A, B, C. intros f. fold f in A, B, C. destruct A as (A1 & A2 & A3).
  split; [exact A1|]. split; [intros x; rewrite B; cbn; tauto|].
  intros sym. specialize (C sym). destruct (last_file sym l None) as [file|].
  - destruct C as [C1 C2]. split; [exact C1|]. unfold GetFileIndex. unfold GetFileName in C1.
    destruct (aget name_eqb sym (fi_name_map f)) as [i|] eqn:E; [|congruence]. split; [eapply A3; eauto|exact C1].
  - unfold GetFileName, GetFileIndex. rewrite C. auto.
Qed.
Print Assumptions C06_file_names.

(** Exactly the names ending in D4Ev, C4Ev, C4EPKc or C4EPKcRKS2_ (after at
    least two more bytes) are written differently: the 4 becomes a 2. *)
Lemma ends_suffix pre suf x : (length x <= length suf)%nat ->
  ends (pre ++ suf) x = name_eqb (skipn (length suf - length x) suf) x.
Proof.
  intros L. unfold ends. f_equal. rewrite app_length.
  replace (length pre + length suf - length x)%nat with (length pre + (length suf - length x))%nat by lia.
  rewrite skipn_app. rewrite skipn_all2 by lia. cbn [app]. f_equal. lia.
Qed.
Lemma set_nth_app {A} (pre suf : list A) k x : set_nth (length pre + k) x (pre ++ suf) = pre ++ set_nth k x suf.
Proof. induction pre as [|a pre IH]; cbn [length Nat.add app set_nth]; [reflexivity|]. rewrite IH. reflexivity. Qed.
Theorem C06_rewritten_names :
  (forall pre, (2 <= length pre)%nat ->
     rewrite_name (pre ++ [68; 52; 69; 118]) = pre ++ [68; 50; 69; 118] /\
     rewrite_name (pre ++ [67; 52; 69; 118]) = pre ++ [67; 50; 69; 118] /\
     rewrite_name (pre ++ [67; 52; 69; 80; 75; 99]) = pre ++ [67; 50; 69; 80; 75; 99] /\
     rewrite_name (pre ++ [67; 52; 69; 80; 75; 99; 82; 75; 83; 50; 95])
       = pre ++ [67; 50; 69; 80; 75; 99; 82; 75; 83; 50; 95]) /\
  (forall n, plain n -> rewrite_name n = n).
Proof.
  split; [|exact plain_rewrite]. intros pre L. unfold rewrite_name. rewrite !app_length.
  assert (B : forall k, Nat.ltb (S k) (length pre + k) = true) by (intros k; apply Nat.ltb_lt; lia).
  split; [|split; [|split]].
  all: cbn [length]; repeat (rewrite ends_suffix by (cbn; lia)).
  - rewrite (B 4%nat). replace (length pre + 4 - 3)%nat with (length pre + 1)%nat by lia.
    rewrite set_nth_app. vm_compute (name_eqb _ D4Ev). cbn [orb andb]. reflexivity.
  - rewrite (B 4%nat). replace (length pre + 4 - 3)%nat with (length pre + 1)%nat by lia.
    rewrite set_nth_app. vm_compute (name_eqb _ D4Ev). vm_compute (name_eqb _ C4Ev). cbn [orb andb]. reflexivity.
  - rewrite (B 6%nat). replace (length pre + 6 - 5)%nat with (length pre + 1)%nat by lia.
    rewrite set_nth_app. vm_compute (name_eqb _ D4Ev). vm_compute (name_eqb _ C4Ev). vm_compute (name_eqb _ C4EPKc).
    rewrite andb_false_r. reflexivity.
  - rewrite (B 11%nat). replace (length pre + 11 - 10)%nat with (length pre + 1)%nat by lia.
    rewrite set_nth_app. vm_compute (name_eqb _ D4Ev). vm_compute (name_eqb _ C4Ev). vm_compute (name_eqb _ C4EPKc).
    vm_compute (name_eqb _ C4EPKcRKS2_). rewrite !andb_false_r. reflexivity.
Qed.
Print Assumptions C06_rewritten_names.
