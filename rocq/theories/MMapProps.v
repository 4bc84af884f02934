(** Properties C39 and C40: memory maps, address translation, counting. *)
From Verif Require Import Base SymbolModel MMapModel MMapSpec MMapProofs.

Lemma select_inv sel evs m : SelectMMaps sel evs = inl m -> inv sel evs m.
Proof.
  unfold SelectMMaps. destruct (select_loop sel [] evs) as [m1|e] eqn:E; [|discriminate].
  intros H. assert (m1 = m) by (destruct m1; [discriminate|congruence]). subst.
  exact (loop_ok sel evs [] [] m (inv_nil sel) E).
Qed.
Lemma known_word sel evs pid e : (forall ev, In ev evs -> event_ok ev) -> known sel evs pid e ->
  word (mm_addr e) /\ word (mm_size e) /\ word (mm_pgoff e).
Proof.
  intros H [ev [Hv [_ [E1 [E2 [_ [_ [_ E3]]]]]]]]. destruct (H ev Hv) as [A [B C]].
  rewrite E1 in A. rewrite E2 in B. split; [exact A|]. split; [exact B|]. rewrite E3.
  destruct (ev_pgoff ev); [exact C|unfold word, w64; lia].
Qed.

(** A successful selection keeps exactly the regions of the events that name
    the binary. *)
Theorem C39_selected sel evs m : SelectMMaps sel evs = inl m ->
  forall pid r,
    (exists e, In e (maps_of m pid) /\ region e = r) <->
    (exists ev e, In ev evs /\ maps_event sel ev pid e /\ region e = r).
Proof.
  intros H pid r. apply select_inv in H. split.
  - intros [e [He Er]]. destruct (inv_from _ _ _ H _ _ He) as [ev [Hv Hm]]. exists ev, e. auto.
  - intros [ev [e [Hv [Hm Er]]]]. destruct (inv_all _ _ _ H pid e) as [e' [H1 H2]]; [exists ev; auto|].
    exists e'. split; [exact H1|congruence].
Qed.
Print Assumptions C39_selected.

(** It fails with a conflict exactly when two events of one process map
    different regions that overlap, wherever they occur in the history; and
    reports that nothing matched exactly when no event names the binary. *)
Theorem C39_errors sel evs :
  (forall ev, In ev evs -> event_ok ev) -> no_wrap sel evs ->
  (SelectMMaps sel evs = inr Conflict <-> conflicting sel evs) /\
  (SelectMMaps sel evs = inr NoMatch <-> forall ev pid e, In ev evs -> ~ maps_event sel ev pid e).
Proof.
  intros Hok Hnw.
  assert (CO : forall pid a b, known sel evs pid a -> known sel evs pid b -> conf a b = true <-> overlap a b).
  { intros pid a b Ka Kb. destruct (known_word sel evs pid a Hok Ka) as [A1 [A2 _]]. destruct (known_word sel evs pid b Hok Kb) as [B1 [B2 _]].
    unfold word in *. destruct Ka as [va [Ia Ma]]. destruct Kb as [vb [Ib Mb]].
    pose proof (Hnw va pid a Ia Ma). pose proof (Hnw vb pid b Ib Mb). apply conf_overlap; lia. }
  unfold SelectMMaps. destruct (select_loop sel [] evs) as [m|e] eqn:E.
  - pose proof (loop_ok sel evs [] [] m (inv_nil sel) E) as I. cbn [app] in I.
    assert (NC : ~ conflicting sel evs).
    { intros [v1 [v2 [pid [a [b [I1 [I2 [M1 [M2 [Hr Ho]]]]]]]]]].
      assert (Ka : known sel evs pid a) by (exists v1; auto). assert (Kb : known sel evs pid b) by (exists v2; auto).
      apply (CO pid a b Ka Kb) in Ho. rewrite (inv_noconf sel evs m pid a b I Ka Kb Hr) in Ho. discriminate. }
    destruct m as [|[p l] m].
    + split; [split; [discriminate|intros X; destruct (NC X)]|]. split; [|reflexivity].
      intros _ ev pid e Hv Hm. destruct (inv_all _ _ _ I pid e) as [x [[] _]]. exists ev; auto.
    + split; [split; [discriminate|intros X; destruct (NC X)]|]. split; [discriminate|]. intros X. exfalso.
      assert (G : aget Z.eqb p ((p, l) :: m) = Some l) by (cbn [aget]; rewrite Z.eqb_refl; reflexivity).
      pose proof (inv_ne _ _ _ I p l G) as Hl. destruct l as [|e l]; [congruence|].
      destruct (inv_from _ _ _ I p e) as [ev [Hv Hm]]; [unfold maps_of; rewrite G; left; reflexivity|].
      exact (X ev p e Hv Hm).
  - destruct (loop_err sel evs [] [] e (inv_nil sel) E) as [-> [pid [a [b [Ka [Kb [Hr Hc]]]]]]]. cbn [app] in *.
    split.
    + split; [intros _|reflexivity]. apply (CO pid a b Ka Kb) in Hc. destruct Ka as [va [Ia Ma]]. destruct Kb as [vb [Ib Mb]].
      exists va, vb, pid, a, b. auto 10.
    + split; [discriminate|]. intros X. exfalso. destruct Ka as [va [Ia Ma]]. exact (X va pid a Ia Ma).
Qed.
Print Assumptions C39_errors.

(** No address is covered by two selected maps of a process. *)
Theorem C39_disjoint sel evs m pid e1 e2 a :
  (forall ev, In ev evs -> event_ok ev) ->
  SelectMMaps sel evs = inl m ->
  In e1 (maps_of m pid) -> In e2 (maps_of m pid) -> covers e1 a -> covers e2 a -> e1 = e2.
Proof.
  intros Hok H H1 H2 C1 C2. apply select_inv in H.
  destruct (inv_conf _ _ _ H pid e1 e2 H1 H2) as [E|[_ E]]; [exact E|exfalso].
  destruct (known_word sel evs pid e1 Hok (inv_from _ _ _ H _ _ H1)) as [A1 [A2 _]].
  destruct (known_word sel evs pid e2 Hok (inv_from _ _ _ H _ _ H2)) as [B1 [B2 _]].
  unfold covers, word in *. assert (overlap e1 e2) by (unfold overlap; lia).
  assert (conf e1 e2 = true) by (apply conf_overlap; [lia..|exact H0]). congruence.
Qed.
Print Assumptions C39_disjoint.

(** Translation of runtime addresses. *)
Lemma translate_cases sel evs m bn pid a :
  (forall ev, In ev evs -> event_ok ev) ->
  SelectMMaps sel evs = inl m ->
  binary_sane bn -> (forall e, In e (maps_of m pid) -> entry_sane e) -> word a ->
  (translated m bn pid a (RuntimeAddressToBinaryAddress m bn pid a)) \/
  (RuntimeAddressToBinaryAddress m bn pid a = kInvalid /\ forall r, ~ translated m bn pid a r).
Proof.
  intros Hok Hsel Hb He Ha. pose proof (select_inv _ _ _ Hsel) as I.
  unfold RuntimeAddressToBinaryAddress, word in *.
  destruct (aget Z.eqb pid m) as [l|] eqn:G.
  2: { right. split; [reflexivity|]. intros r T. assert (maps_of m pid = []) by (unfold maps_of; rewrite G; reflexivity).
       inversion T as [e Hin|e s Hin|e s Hin]; rewrite H in Hin; destruct Hin. }
  assert (EL : maps_of m pid = l) by (unfold maps_of; rewrite G; reflexivity).
  destruct (find_mmap a l) as [mm|] eqn:F.
  2: { right. split; [reflexivity|]. apply find_mmap_none in F as [_ F]. intros r T.
       assert (N : forall e, In e (maps_of m pid) -> covers e a -> False).
       { intros e Hin C. pose proof (He e Hin) as Hs. unfold entry_sane in Hs. apply covers_iff in C; [|lia..].
         rewrite EL in Hin. rewrite (F e Hin) in C. discriminate. }
       inversion T as [e Hin C|e s Hin C|e s Hin C]; subst; eapply N; eassumption. }
  apply find_mmap_some in F as [[F1 F2]|F]; [|discriminate]. rewrite <- EL in F1.
  pose proof (He mm F1) as Hs. unfold entry_sane in Hs. apply covers_iff in F2; [|lia..].
  assert (UN : forall e, In e (maps_of m pid) -> covers e a -> e = mm) by (intros e H1 H2; eapply C39_disjoint; eauto).
  assert (Hcov := F2). unfold covers in Hcov.
  destruct (Z.eqb_spec pid kKernelPid) as [Ek|Ek]; cbn [negb andb].
  - set (b := seg_base true (bn_segments bn)).
    assert (EO : u64 (a - mm_addr mm) = a - mm_addr mm) by (apply Z.mod_small; lia). rewrite EO.
    assert (B0 : 0 <= b).
    { unfold b, seg_base. destruct (bn_segments bn) as [|s ?] eqn:ES; [lia|]. destruct (Hb s) as [? _]; [rewrite ES; left; reflexivity|lia]. }
    destruct (segment_loop_spec true (a - mm_addr mm) b) with (l := bn_segments bn) (first := @None Z)
      as [[bf [s [af [E1 [E2 [E3 E4]]]]]]|[E1 E2]]; [lia|exact B0|discriminate| | | |].
    + intros s Hin. destruct (Hb s Hin) as [? [? [? [? [? ?]]]]]. fold b in H4. lia.
    + intros _. unfold b, seg_base. destruct (bn_segments bn); auto.
    + left. rewrite E4. apply (tr_kernel m bn pid a mm s F1 F2 Ek).
      exists bf, af. split; [exact E1|]. cbv zeta. fold b. split; [exact E2|exact E3].
    + right. split; [exact E1|]. intros r T. inversion T as [e Hin C P Q|e s Hin C P Q S0|e s Hin C P S0]; subst; [congruence|congruence|].
      rewrite (UN e Hin C) in *. destruct S0 as [bf [af [Y1 [Y2 Y3]]]]. cbv zeta in Y2. fold b in Y2.
      apply (E2 s); [rewrite Y1; apply in_or_app; right; left; reflexivity|exact Y2].
  - destruct (bn_pie bn) eqn:P; cbn [negb].
    2: { left. exact (tr_absolute m bn pid a mm F1 F2 Ek P). }
    assert (EO : u64 (u64 (a - mm_addr mm) + mm_pgoff mm) = a - mm_addr mm + mm_pgoff mm).
    { unfold u64. rewrite (Z.mod_small (a - _)) by lia. apply Z.mod_small. lia. }
    rewrite EO.
    destruct (segment_loop_spec false (a - mm_addr mm + mm_pgoff mm) 0) with (l := bn_segments bn) (first := @None Z)
      as [[bf [s [af [E1 [E2 [E3 E4]]]]]]|[E1 E2]]; [lia|lia|reflexivity| |discriminate| |].
    + intros s Hin. destruct (Hb s Hin) as [? [? [? [? [? ?]]]]]. lia.
    + left. rewrite E4. replace (a - mm_addr mm + mm_pgoff mm - (sg_offset s - 0) + sg_vaddr s)
        with (a - mm_addr mm + mm_pgoff mm - sg_offset s + sg_vaddr s) by lia.
      apply (tr_relative m bn pid a mm s F1 F2 Ek P).
      exists bf, af. split; [exact E1|]. cbv zeta. change (seg_base false (bn_segments bn)) with 0. split; [exact E2|exact E3].
    + right. split; [exact E1|]. intros r T. inversion T as [e Hin C P' Q|e s Hin C P' Q S0|e s Hin C P' S0]; subst; [congruence| |congruence].
      rewrite (UN e Hin C) in *. destruct S0 as [bf [af [Y1 [Y2 Y3]]]]. cbv zeta in Y2. change (seg_base false (bn_segments bn)) with 0 in Y2.
      apply (E2 s); [rewrite Y1; apply in_or_app; right; left; reflexivity|exact Y2].
Qed.

Lemma translated_valid m bn pid a r : binary_sane bn -> word a -> (forall e, In e (maps_of m pid) -> entry_sane e) ->
  translated m bn pid a r -> 0 <= r < kInvalid.
Proof.
  intros Hb Ha He T. inversion T as [e Hin C P Q|e s Hin C P Q S0|e s Hin C P S0]; subst.
  - unfold covers, word, kInvalid in *. lia.
  - destruct S0 as [bf [af [Y1 [Y2 _]]]]. cbv zeta in Y2. change (seg_base false (bn_segments bn)) with 0 in Y2.
    destruct (Hb s) as [? [? [? [? [? ?]]]]]; [rewrite Y1; apply in_or_app; right; left; reflexivity|]. unfold kInvalid. lia.
  - destruct S0 as [bf [af [Y1 [Y2 _]]]]. cbv zeta in Y2.
    destruct (Hb s) as [? [? [? [? [? ?]]]]]; [rewrite Y1; apply in_or_app; right; left; reflexivity|]. unfold kInvalid. lia.
Qed.

(** A runtime address is given exactly the address of the binary that it has
    by the map and the segment containing it; otherwise it is invalid. *)
Theorem C39_translate sel evs m bn pid a :
  (forall ev, In ev evs -> event_ok ev) ->
  SelectMMaps sel evs = inl m ->
  binary_sane bn -> (forall e, In e (maps_of m pid) -> entry_sane e) -> word a ->
  (forall r, translated m bn pid a r <->
             RuntimeAddressToBinaryAddress m bn pid a = r /\ r <> kInvalid) /\
  (RuntimeAddressToBinaryAddress m bn pid a = kInvalid <-> forall r, ~ translated m bn pid a r).
Proof.
  intros Hok Hsel Hb He Ha.
  assert (V : forall r, translated m bn pid a r -> 0 <= r < kInvalid) by (intros r; apply translated_valid; assumption).
  assert (UN : forall e1 e2, In e1 (maps_of m pid) -> In e2 (maps_of m pid) -> covers e1 a -> covers e2 a -> e1 = e2)
    by (intros; eapply C39_disjoint; eauto).
  assert (FS : forall k off s1 s2, first_segment k (bn_segments bn) off s1 -> first_segment k (bn_segments bn) off s2 -> s1 = s2).
  { intros k off s1 s2 [b1 [a1 [E1 [P1 N1]]]] [b2 [a2 [E2 [P2 N2]]]]. cbv zeta in *. set (b := seg_base k (bn_segments bn)) in *.
    clearbody b. rewrite E1 in E2. clear - E2 P1 N1 P2 N2. revert b2 E2 N2. induction b1 as [|x b1 IH]; intros [|y b2] E2 N2; cbn [app] in E2.
    - injection E2 as E2 _. exact E2.
    - injection E2 as -> _. exfalso. apply (N2 y (or_introl eq_refl)). exact P1.
    - injection E2 as -> _. exfalso. apply (N1 s2 (or_introl eq_refl)). exact P2.
    - injection E2 as -> E2. apply (IH (fun z Hz => N1 z (or_intror Hz)) b2 E2 (fun z Hz => N2 z (or_intror Hz))). }
  assert (FUN : forall r r', translated m bn pid a r -> translated m bn pid a r' -> r = r').
  { intros r r' T1 T2.
    inversion T1 as [e Hin C P Q|e s Hin C P Q S0|e s Hin C P S0];
      inversion T2 as [e' Hin' C' P' Q'|e' s' Hin' C' P' Q' S0'|e' s' Hin' C' P' S0']; subst; try congruence;
      pose proof (UN _ _ Hin Hin' C C') as ->; pose proof (FS _ _ _ _ S0 S0') as ->; reflexivity. }
  destruct (translate_cases sel evs m bn pid a Hok Hsel Hb He Ha) as [T|[E N]].
  - split.
    + intros r. split; [intros T'; split; [apply FUN; assumption|]; apply V in T'; unfold kInvalid in *; lia|].
      intros [<- _]. exact T.
    + split; [|intros N; destruct (N _ T)]. intros E. exfalso. apply V in T. rewrite E in T. lia.
  - split.
    + intros r. split; [intros T; destruct (N _ T)|]. intros [<- X]. congruence.
    + split; [intros _; exact N|intros _; exact E].
Qed.
Print Assumptions C39_translate.

(** Inside one map and one segment distances are preserved; in particular two
    addresses of one map translate to the same address only if the segments
    share addresses. *)
Theorem C39_distance sel evs m bn pid e s a b :
  (forall ev, In ev evs -> event_ok ev) ->
  SelectMMaps sel evs = inl m ->
  binary_sane bn -> (forall e, In e (maps_of m pid) -> entry_sane e) -> word a -> word b ->
  In e (maps_of m pid) -> covers e a -> covers e b ->
  pid <> kKernelPid -> bn_pie bn = true ->
  first_segment false (bn_segments bn) (a - mm_addr e + mm_pgoff e) s ->
  first_segment false (bn_segments bn) (b - mm_addr e + mm_pgoff e) s ->
  RuntimeAddressToBinaryAddress m bn pid b - RuntimeAddressToBinaryAddress m bn pid a = b - a.
Proof.
  intros Hok Hsel Hb He Ha Hb' Hin Ca Cb Hp Hpie Sa Sb.
  destruct (C39_translate sel evs m bn pid a Hok Hsel Hb He Ha) as [Ta _].
  destruct (C39_translate sel evs m bn pid b Hok Hsel Hb He Hb') as [Tb _].
  destruct (proj1 (Ta _) (tr_relative m bn pid a e s Hin Ca Hp Hpie Sa)) as [-> _].
  destruct (proj1 (Tb _) (tr_relative m bn pid b e s Hin Cb Hp Hpie Sb)) as [-> _]. lia.
Qed.
Print Assumptions C39_distance.

Definition disjoint_images (bn : binary) : Prop :=
  forall s1 s2 x, In s1 (bn_segments bn) -> In s2 (bn_segments bn) ->
    sg_vaddr s1 <= x < sg_vaddr s1 + sg_memsz s1 -> sg_vaddr s2 <= x < sg_vaddr s2 + sg_memsz s2 -> s1 = s2.
Theorem C39_injective sel evs m bn pid e a b :
  (forall ev, In ev evs -> event_ok ev) ->
  SelectMMaps sel evs = inl m ->
  binary_sane bn -> disjoint_images bn -> (forall e, In e (maps_of m pid) -> entry_sane e) -> word a -> word b ->
  In e (maps_of m pid) -> covers e a -> covers e b ->
  RuntimeAddressToBinaryAddress m bn pid a = RuntimeAddressToBinaryAddress m bn pid b ->
  RuntimeAddressToBinaryAddress m bn pid a <> kInvalid -> a = b.
Proof.
  intros Hok Hsel Hb Hd He Ha Hb' Hin Ca Cb E NI.
  destruct (C39_translate sel evs m bn pid a Hok Hsel Hb He Ha) as [Ta _].
  destruct (C39_translate sel evs m bn pid b Hok Hsel Hb He Hb') as [Tb _].
  assert (T1 : translated m bn pid a (RuntimeAddressToBinaryAddress m bn pid a)) by (apply Ta; auto).
  assert (T2 : translated m bn pid b (RuntimeAddressToBinaryAddress m bn pid a)) by (apply Tb; rewrite E in *; auto).
  set (r := RuntimeAddressToBinaryAddress m bn pid a) in *. clearbody r.
  assert (UN : forall x c, In x (maps_of m pid) -> covers x c -> covers e c -> x = e) by (intros; eapply C39_disjoint; eauto).
  inversion T1 as [e1 Hin1 C1 P1 Q1 R1|e1 s1 Hin1 C1 P1 Q1 S1 R1|e1 s1 Hin1 C1 P1 S1 R1];
  inversion T2 as [e2 Hin2 C2 P2 Q2 R2|e2 s2 Hin2 C2 P2 Q2 S2 R2|e2 s2 Hin2 C2 P2 S2 R2]; try congruence;
    rewrite (UN e1 a Hin1 C1 Ca) in *; rewrite (UN e2 b Hin2 C2 Cb) in *;
    destruct S1 as [bf1 [af1 [X1 [Y1 _]]]]; destruct S2 as [bf2 [af2 [X2 [Y2 _]]]]; cbv zeta in Y1, Y2;
    assert (I1 : In s1 (bn_segments bn)) by (rewrite X1; apply in_or_app; right; left; reflexivity);
    assert (I2 : In s2 (bn_segments bn)) by (rewrite X2; apply in_or_app; right; left; reflexivity).
  - change (seg_base false (bn_segments bn)) with 0 in *.
    assert (s1 = s2) as -> by (apply (Hd s1 s2 r); auto; lia). lia.
  - assert (s1 = s2) as -> by (apply (Hd s1 s2 r); auto; lia). lia.
Qed.
Print Assumptions C39_injective.

(** A map that ends exactly at the end of the address space is selected but
    no address is ever translated with it. *)
Theorem C39_map_at_end_refuted :
  exists sel evs m bn a,
    SelectMMaps sel evs = inl m /\ (forall ev, In ev evs -> event_ok ev) /\ binary_sane bn /\
    (exists e, maps_of m kKernelPid = [e] /\ mm_addr e <= a < mm_addr e + mm_size e /\ mm_addr e + mm_size e = w64) /\
    RuntimeAddressToBinaryAddress m bn kKernelPid a = kInvalid /\
    In (Segment 4096 a 4096) (bn_segments bn) .
Proof.
  exists (fun _ => true), [MMapEvent (Some kKernelPid) (Some (w64 - 8192)) (Some 8192) None (Some [107])],
    [(kKernelPid, [MMapEntry (w64 - 8192) 8192 0 [107]])], (Binary false [Segment 4096 (w64 - 8192) 4096]), (w64 - 8192).
  split; [vm_compute; reflexivity|]. split.
  { intros ev [<-|[]]. unfold event_ok, opt_word, word, w64; cbn. lia. }
  split. { intros s [<-|[]]. unfold w64; cbn. lia. }
  split. { eexists. split; [vm_compute; reflexivity|]. cbn [mm_addr mm_size]. unfold w64. lia. }
  split; [vm_compute; reflexivity|]. left. reflexivity.
Qed.
Print Assumptions C39_map_at_end_refuted.

(** A PIE with a text segment at file offset 4096, loaded twice in process 7
    and once (via two identical events) in process 8; other files ignored. *)
Definition ex_name : name := [47; 97].
Definition ex_sel (n : name) : bool := name_eqb n ex_name.
Definition ex_evs : list mmap_event :=
  [MMapEvent (Some 7) (Some 65536) (Some 8192) (Some 4096) (Some ex_name);
   MMapEvent (Some 7) (Some 0) (Some 900000) None (Some [98]);
   MMapEvent (Some 8) (Some 32768) (Some 8192) (Some 4096) (Some ex_name);
   MMapEvent (Some 8) (Some 32768) (Some 8192) (Some 4096) (Some ex_name);
   MMapEvent (Some 7) (Some 16384) (Some 4096) (Some 12288) (Some ex_name)].
Definition ex_maps : mmaps :=
  [(7, [MMapEntry 16384 4096 12288 ex_name; MMapEntry 65536 8192 4096 ex_name]); (8, [MMapEntry 32768 8192 4096 ex_name])].
Definition ex_bin : binary := Binary true [Segment 4096 200704 8000; Segment 12288 300000 4096].
Example C39_nonvacuous :
  SelectMMaps ex_sel ex_evs = inl ex_maps /\ (forall ev, In ev ex_evs -> event_ok ev) /\ no_wrap ex_sel ex_evs /\
  binary_sane ex_bin /\ disjoint_images ex_bin /\
  (forall e, In e (maps_of ex_maps 7) -> entry_sane e) /\
  map (RuntimeAddressToBinaryAddress ex_maps ex_bin 7) [65536; 65546; 73535; 73536; 16400; 5] =
    [200704; 200714; 208703; kInvalid; 300016; kInvalid] /\
  SelectMMaps ex_sel (ex_evs ++ [MMapEvent (Some 8) (Some 40000) (Some 4096) None (Some ex_name)]) = inr Conflict.
Proof.
  split; [vm_compute; reflexivity|]. split.
  { intros ev H. cbn [ex_evs In] in H. unfold event_ok, opt_word, word, w64.
    destruct H as [<-|[<-|[<-|[<-|[<-|[]]]]]]; cbn; lia. }
  split.
  { intros ev pid e H [_ [E1 [E2 _]]]. cbn [ex_evs In] in H.
    destruct H as [<-|[<-|[<-|[<-|[<-|[]]]]]]; cbn in E1, E2; injection E1 as <-; injection E2 as <-; reflexivity. }
  split. { intros s [<-|[<-|[]]]; unfold w64; cbn; lia. }
  split. { intros s1 s2 x [<-|[<-|[]]] [<-|[<-|[]]]; cbn; intros; first [reflexivity|lia]. }
  split. { intros e [<-|[<-|[]]]; unfold entry_sane, w64; cbn; lia. }
  split; vm_compute; reflexivity.
Qed.

(** ** Counting *)
Lemma addr2_eqb_spec a b : reflect (a = b) (addr2_eqb a b).
Proof.
  unfold addr2_eqb. destruct a as [a1 a2], b as [b1 b2]. cbn [fst snd].
  destruct (Z.eqb_spec a1 b1), (Z.eqb_spec a2 b2); cbn [andb]; constructor; congruence.
Qed.
Lemma cget_cinc {K} (eqb : K -> K -> bool) (Hs : forall a b, reflect (a = b) (eqb a b)) k k0 m :
  cget eqb k (cinc eqb k0 m) = cget eqb k m + (if eqb k k0 then 1 else 0).
Proof.
  unfold cget at 1, cinc. rewrite (aget_aset eqb Hs). destruct (Hs k k0) as [->|]; [reflexivity|].
  unfold cget. lia.
Qed.
Lemma count_app {A} (p : A -> bool) l k : count p (l ++ k) = count p l + count p k.
Proof. unfold count. rewrite filter_app, zlen_app. reflexivity. Qed.
Lemma count_rev {A} (p : A -> bool) l : count p (rev l) = count p l.
Proof. induction l as [|x l IH]; [reflexivity|]. cbn [rev]. rewrite count_app, IH. unfold count. cbn [filter]. destruct (p x); unfold zlen; cbn [length]; lia. Qed.
Lemma count_cons {A} (p : A -> bool) x l : count p (x :: l) = (if p x then 1 else 0) + count p l.
Proof. unfold count. cbn [filter]. destruct (p x); unfold zlen; cbn [length]; lia. Qed.

Definition is_branch (tr : Z -> Z) (k : Z * Z) (e : Z * Z) : bool := addr2_eqb k (tr (fst e), tr (snd e)).
Definition is_range (tr : Z -> Z) (k : Z * Z) (p : (Z * Z) * (Z * Z)) : bool :=
  let '(older, newer) := p in
  negb (tr (snd older) =? kInvalid) && (tr (snd older) <=? tr (fst newer)) && addr2_eqb k (tr (snd older), tr (fst newer)).
Fixpoint ranges (tr : Z -> Z) (k : Z * Z) (last : option (Z * Z)) (l : list (Z * Z)) : Z :=
  match l with
  | [] => 0
  | e :: l' => (match last with Some o => if is_range tr k (o, e) then 1 else 0 | None => 0 end) + ranges tr k (Some e) l'
  end.
Lemma lbr_loop_counts tr k : forall l last r,
  cget addr2_eqb k (fst (lbr_loop tr (match last with Some o => tr (snd o) | None => kInvalid end) l r)) =
    cget addr2_eqb k (fst r) + count (is_branch tr k) l /\
  cget addr2_eqb k (snd (lbr_loop tr (match last with Some o => tr (snd o) | None => kInvalid end) l r)) =
    cget addr2_eqb k (snd r) + ranges tr k last l.
Proof.
  induction l as [|[f t] l IH]; intros last [br ft]; cbn [lbr_loop ranges].
  - unfold count. cbn. split; lia.
  - specialize (IH (Some (f, t))). cbv beta iota in IH. cbn [snd] in IH.
    match goal with |- context [lbr_loop tr (tr t) l ?r] => destruct (IH r) as [E1 E2] end.
    rewrite E1, E2. cbn [fst snd]. clear E1 E2 IH.
    split.
    + rewrite (cget_cinc addr2_eqb addr2_eqb_spec), count_cons. unfold is_branch at 2. cbn [fst snd]. lia.
    + destruct last as [[of ot]|]; cbn [snd].
      * unfold is_range at 1. cbn [fst snd].
        destruct (negb (tr ot =? kInvalid) && (tr ot <=? tr f)) eqn:C; cbn [andb]; [|lia].
        rewrite (cget_cinc addr2_eqb addr2_eqb_spec). lia.
      * rewrite Z.eqb_refl. cbn [negb andb]. lia.
Qed.
Lemma ranges_consecutive tr k : forall l last,
  ranges tr k last l = count (is_range tr k) (combine (match last with Some o => o :: l | None => l end) (match last with Some o => l | None => tl l end)).
Proof.
  induction l as [|e l IH]; intros last; cbn [ranges].
  - destruct last; reflexivity.
  - rewrite IH. destruct last as [o|]; cbn [combine tl].
    + rewrite count_cons. reflexivity.
    + lia.
Qed.
Lemma combine_app_eq {A B} (a a' : list A) (b b' : list B) : length a = length b ->
  combine (a ++ a') (b ++ b') = combine a b ++ combine a' b'.
Proof. revert b. induction a as [|x a IH]; intros [|y b]; cbn; try discriminate; [reflexivity|]. intros H. rewrite IH by lia. reflexivity. Qed.
Lemma consecutive_rev (s : list (Z * Z)) : combine (rev s) (tl (rev s)) = rev (consecutive s).
Proof.
  unfold consecutive. induction s as [|x s IH]; [reflexivity|]. cbn [rev tl].
  destruct s as [|y s]; [reflexivity|]. cbn [tl] in IH. cbn [combine]. cbn [rev] in *.
  rewrite <- IH.
  set (r := rev s) in *. clearbody r. clear.
  assert (E : tl ((r ++ [y]) ++ [x]) = tl (r ++ [y]) ++ [x]) by (destruct r; reflexivity).
  rewrite E.
  (* combine (r ++ [y] ++ [x]) (tl (r++[y]) ++ [x]) *)
  rewrite <- app_assoc. cbn [app].
  assert (G : forall (r t : list (Z * Z)), length t = length r ->
              combine (r ++ [y; x]) (t ++ [x]) = combine (r ++ [y]) t ++ [(y, x)]).
  { clear. induction r as [|z r IH]; intros [|w t]; cbn; try discriminate; [reflexivity|]. intros H. rewrite IH by lia. reflexivity. }
  apply G. destruct r; cbn; [reflexivity|]. rewrite app_length. cbn. lia.
Qed.

Lemma mapped_aget m pid : mapped m pid = match aget Z.eqb pid m with Some _ => true | None => false end.
Proof.
  unfold mapped. induction m as [|[p l] m IH]; cbn [map fst existsb aget]; [reflexivity|].
  destruct (pid =? p); cbn [orb]; [reflexivity|exact IH].
Qed.
Lemma sample_pid_spec m s : sample_pid m s = process_of m (sa_pid s).
Proof.
  unfold sample_pid, process_of, IsKernelMode. rewrite mapped_aget.
  destruct (aget Z.eqb kKernelPid m); [reflexivity|]. destruct (sa_pid s) as [p|]; [|reflexivity].
  rewrite mapped_aget. destruct (aget Z.eqb p m); reflexivity.
Qed.

(** Every branch counter is increased by the number of stack entries, in the
    samples of the processes concerned, that translate to it; every fall-through
    counter by the number of consecutive entries (older, newer) such that the
    target of the older one is valid and not above the source of the newer. *)
Theorem C40_lbr m bn samples br ft :
  forall k,
    cget addr2_eqb k (fst (AggregateLBR m bn samples (br, ft))) =
      cget addr2_eqb k br +
      sum_samples m (fun pid stack =>
        let tr := RuntimeAddressToBinaryAddress m bn pid in
        count (fun e => addr2_eqb k (tr (fst e), tr (snd e))) stack) samples /\
    cget addr2_eqb k (snd (AggregateLBR m bn samples (br, ft))) =
      cget addr2_eqb k ft +
      sum_samples m (fun pid stack =>
        let tr := RuntimeAddressToBinaryAddress m bn pid in
        count (fun p => let '(older, newer) := p in
                 negb (tr (snd older) =? kInvalid) && (tr (snd older) <=? tr (fst newer)) &&
                 addr2_eqb k (tr (snd older), tr (fst newer))) (consecutive stack)) samples.
Proof.
  intros k. unfold AggregateLBR. cbv zeta.
  assert (G : forall r, 
    cget addr2_eqb k (fst (fold_left (fun r s => match sample_pid m s with None => r | Some pid => lbr_loop (RuntimeAddressToBinaryAddress m bn pid) kInvalid (rev (sa_stack s)) r end) samples r)) =
      cget addr2_eqb k (fst r) + sum_samples m (fun pid stack => count (is_branch (RuntimeAddressToBinaryAddress m bn pid) k) stack) samples /\
    cget addr2_eqb k (snd (fold_left (fun r s => match sample_pid m s with None => r | Some pid => lbr_loop (RuntimeAddressToBinaryAddress m bn pid) kInvalid (rev (sa_stack s)) r end) samples r)) =
      cget addr2_eqb k (snd r) + sum_samples m (fun pid stack => count (is_range (RuntimeAddressToBinaryAddress m bn pid) k) (consecutive stack)) samples).
  { induction samples as [|s samples IH]; intros r; cbn [fold_left sum_samples]; [split; lia|].
    rewrite sample_pid_spec. destruct (process_of m (sa_pid s)) as [pid|].
    - set (tr := RuntimeAddressToBinaryAddress m bn pid).
      destruct (IH (lbr_loop tr kInvalid (rev (sa_stack s)) r)) as [E1 E2]. rewrite E1, E2.
      destruct (lbr_loop_counts tr k (rev (sa_stack s)) None r) as [F1 F2]. rewrite F1, F2.
      rewrite count_rev, ranges_consecutive, consecutive_rev, count_rev. split; lia.
    - destruct (IH r) as [E1 E2]. rewrite E1, E2. split; lia. }
  destruct (G (br, ft)) as [E1 E2]. split; [exact E1|exact E2].
Qed.
Print Assumptions C40_lbr.

(** SPE records: each retired branch of a process concerned counts once, as
    not taken if it is conditional and marked so, otherwise as taken. *)
Definition spe_process (m : mmaps) (s : spe_record) : option Z :=
  let pid := if mapped m kKernelPid then kKernelPid else u32 (sr_pid s) in
  if mapped m pid && sr_retired s && sr_branch s then Some pid else None.
Theorem C40_spe m bn records taken not_taken :
  (forall k, cget addr2_eqb k (fst (AggregateSpe m bn records (taken, not_taken))) =
     cget addr2_eqb k taken +
     count (fun s => match spe_process m s with
                     | Some pid => negb (sr_cond s && sr_not_taken s) &&
                         addr2_eqb k (RuntimeAddressToBinaryAddress m bn pid (sr_ip s),
                                      RuntimeAddressToBinaryAddress m bn pid (sr_target s))
                     | None => false end) records) /\
  (forall a, cget Z.eqb a (snd (AggregateSpe m bn records (taken, not_taken))) =
     cget Z.eqb a not_taken +
     count (fun s => match spe_process m s with
                     | Some pid => (sr_cond s && sr_not_taken s) && (a =? RuntimeAddressToBinaryAddress m bn pid (sr_ip s))
                     | None => false end) records).
Proof.
  unfold AggregateSpe.
  assert (ST : forall r s, spe_step m bn r s =
    match spe_process m s with
    | Some pid => let from := RuntimeAddressToBinaryAddress m bn pid (sr_ip s) in
        if sr_cond s && sr_not_taken s then (fst r, cinc Z.eqb from (snd r))
        else (cinc addr2_eqb (from, RuntimeAddressToBinaryAddress m bn pid (sr_target s)) (fst r), snd r)
    | None => r end).
  { intros r s. unfold spe_step, spe_process, IsKernelMode. rewrite !mapped_aget.
    set (pid := if match aget Z.eqb kKernelPid m with Some _ => true | None => false end then kKernelPid else u32 (sr_pid s)).
    destruct (aget Z.eqb pid m); cbn [andb]; [|reflexivity].
    destruct (sr_retired s), (sr_branch s); reflexivity. }
  split.
  - intros k. change taken with (fst (taken, not_taken)) at 2. generalize (taken, not_taken).
    induction records as [|s l IH]; intros r; cbn [fold_left]; [unfold count; cbn; lia|].
    rewrite IH, count_cons, ST. destruct (spe_process m s) as [pid|]; [|lia]. cbv zeta.
    destruct (sr_cond s && sr_not_taken s); cbn [negb andb fst]; [lia|].
    rewrite (cget_cinc addr2_eqb addr2_eqb_spec). lia.
  - intros k. change not_taken with (snd (taken, not_taken)) at 2. generalize (taken, not_taken).
    induction records as [|s l IH]; intros r; cbn [fold_left]; [unfold count; cbn; lia|].
    rewrite IH, count_cons, ST. destruct (spe_process m s) as [pid|]; [|lia]. cbv zeta.
    destruct (sr_cond s && sr_not_taken s); cbn [negb andb snd]; [|lia].
    rewrite (cget_cinc Z.eqb Z.eqb_spec). lia.
Qed.
Print Assumptions C40_spe.

(** A fall-through is also counted up to a branch that lies outside the binary:
    the invalid address is above every target. *)
Definition ex_samples : list sample :=
  [Sample (Some 7) [(65560, 16384); (65546, 65556); (16400, 65536)];
   Sample (Some 9) [(65560, 16384)]; Sample None [(65560, 16384)];
   Sample (Some 7) [(65546, 65556); (16400, 65536)];
   Sample (Some 7) [(5, 65556); (16400, 65540)]].
Theorem C40_range_to_outside_refuted :
  cget addr2_eqb (200708, kInvalid) (snd (AggregateLBR ex_maps ex_bin ex_samples ([], []))) = 1.
Proof. vm_compute. reflexivity. Qed.
Print Assumptions C40_range_to_outside_refuted.
Example C40_nonvacuous :
  AggregateLBR ex_maps ex_bin ex_samples ([], []) =
    ([((300016, 200704), 2); ((200714, 200724), 2); ((200728, 300000), 1); ((300016, 200708), 1); ((kInvalid, 200724), 1)],
     [((200704, 200714), 2); ((200724, 200728), 1); ((200708, kInvalid), 1)]) /\
  AggregateSpe ex_maps ex_bin
    [SpeRecord 7 true true true true 65546 0; SpeRecord 7 true true false true 65546 65536;
     SpeRecord 7 false true false true 65546 65536; SpeRecord 8 true true false false 32768 32778; SpeRecord 9 true true false false 1 2]
    ([], []) = ([((200714, 200704), 1); ((200704, 200714), 1)], [(200714, 1)]).
Proof. split; vm_compute; reflexivity. Qed.
