(** C16 (file offset / virtual address translation) and C17 (address lookup). *)
From Verif Require Import Base ZMap AddrModel.

(** * C16 *)

(** A loadable executable segment: file offset, virtual address, size. *)
Record seg := { sg_off : Z; sg_vaddr : Z; sg_size : Z }.

(** The segments of a binary, in program header order: 64-bit, and laid out in
    ascending order without overlap both in the file and in memory. *)
Fixpoint laid_out (segs : list seg) : Prop :=
  match segs with
  | [] => True
  | s :: segs' =>
      0 <= sg_off s /\ 0 <= sg_vaddr s /\ 0 < sg_size s /\
      sg_off s + sg_size s <= 2 ^ 64 /\ sg_vaddr s + sg_size s <= 2 ^ 64 /\
      (forall t, In t segs' -> sg_off s + sg_size s <= sg_off t /\
                               sg_vaddr s + sg_size s <= sg_vaddr t) /\
      laid_out segs'
  end.

Definition seg_pair (s : seg) : Z * Z := (sg_off s, sg_vaddr s).

(** Excluded by the alignment rule of ELF (vaddr = offset modulo the page size). *)
Definition aligned (s : seg) : Prop := (sg_vaddr s - sg_off s) mod 2 = 0.

Lemma laid_out_In segs s : laid_out segs -> In s segs ->
  0 <= sg_off s /\ 0 <= sg_vaddr s /\ 0 < sg_size s /\
  sg_off s + sg_size s <= 2 ^ 64 /\ sg_vaddr s + sg_size s <= 2 ^ 64.
Proof. induction segs; cbn; [contradiction|]. intros H [->|I]; intuition. Qed.

Lemma base_addr_loop_ok segs : forall s d base, laid_out segs -> In s segs ->
  0 <= d < sg_size s ->
  base_addr_loop (map seg_pair segs) (sg_off s + d) base = u64 (sg_vaddr s - sg_off s).
Proof.
  induction segs as [|t segs IH]; intros s d base L I D; [contradiction|].
  cbn [map base_addr_loop seg_pair]. cbn in L. destruct L as (L1 & L2 & L3 & L4 & L5 & L6 & L7).
  destruct I as [->|I].
  - assert (sg_off s + d <? sg_off s = false) as -> by lia.
    clear IH. revert L6. generalize (u64 (sg_vaddr s - sg_off s)) as b.
    clear L7. destruct segs as [|t segs]; intros b L6; cbn; auto.
    destruct (L6 t (or_introl eq_refl)).
    assert (sg_off s + d <? sg_off t = true) as -> by lia. reflexivity.
  - pose proof (L6 _ I).
    assert (sg_off s + d <? sg_off t = false) as -> by lia. apply IH; auto.
Qed.

Lemma seg_before_ok segs : forall s d prev, laid_out segs -> In s segs ->
  0 <= d < sg_size s ->
  seg_before (map seg_pair segs) prev (sg_vaddr s + d) = Some (sg_off s, sg_vaddr s).
Proof.
  induction segs as [|t segs IH]; intros s d prev L I D; [contradiction|].
  cbn [map seg_before seg_pair]. cbn in L. destruct L as (L1 & L2 & L3 & L4 & L5 & L6 & L7).
  destruct I as [->|I].
  - assert (sg_vaddr s + d <? sg_vaddr s = false) as -> by lia.
    destruct segs as [|t segs]; cbn; auto.
    destruct (L6 t (or_introl eq_refl)).
    assert (sg_vaddr s + d <? sg_vaddr t = true) as -> by lia. reflexivity.
  - pose proof (L6 _ I).
    assert (sg_vaddr s + d <? sg_vaddr t = false) as -> by lia. apply IH; auto.
Qed.

Ltac Zify.zify_post_hook ::= Z.div_mod_to_equations.
Lemma even_mod x : x mod 2 = 0 -> u64 x mod 2 = 0.
Proof. unfold u64, w64. lia. Qed.
Ltac Zify.zify_post_hook ::= idtac.

(** The d-th byte of a segment: its file offset and its virtual address are
    translated into each other. *)
Theorem C16_offset_vaddr_inverse (segs : list seg) (s : seg) (d : Z) :
  laid_out segs -> In s segs -> aligned s -> 0 <= d < sg_size s ->
  get_static_vaddr (map seg_pair segs) (sg_off s + d) = Ok (sg_vaddr s + d) /\
  GetFileOffsetFromStaticVaddr (map seg_pair segs) (sg_vaddr s + d) = Ok (sg_off s + d).
Proof.
  intros L I A D. pose proof (laid_out_In _ _ L I) as B. unfold aligned in A. split.
  - unfold get_static_vaddr. rewrite (base_addr_loop_ok segs) by auto.
    assert (N : u64 (sg_vaddr s - sg_off s) <> w64 - 1).
    { intros E. assert (X : u64 (sg_vaddr s - sg_off s) mod 2 = 0).
      { apply even_mod; auto. }
      rewrite E in X. discriminate. }
    assert (u64 (sg_vaddr s - sg_off s) =? w64 - 1 = false) as -> by lia.
    f_equal. unfold u64, w64. change 18446744073709551616 with (2 ^ 64).
    rewrite Zplus_mod_idemp_r.
    replace (sg_off s + d + (sg_vaddr s - sg_off s)) with (sg_vaddr s + d) by lia.
    apply Z.mod_small. lia.
  - unfold GetFileOffsetFromStaticVaddr. rewrite (seg_before_ok segs) by auto.
    f_equal. replace (sg_off s + (sg_vaddr s + d) - sg_vaddr s) with (sg_off s + d) by lia.
    apply Z.mod_small. unfold w64. change 18446744073709551616 with (2 ^ 64). lia.
Qed.

(** From the program headers: for a user-space binary every loadable and
    executable header becomes a segment, in order. *)
Theorem C16_segments_of_program_headers (l : list phdr) :
  (forall p, In p l -> 0 <= ph_offset p < 2 ^ 64) ->
  ReadLoadableExecSegmentInfo false l
  = map (fun p => (ph_offset p, ph_vaddr p)) (filter (fun p => ph_load p && ph_exec p) l).
Proof.
  unfold ReadLoadableExecSegmentInfo. induction l as [|p l IH]; intros B; [reflexivity|].
  cbn [exec_segments_from filter].
  assert (E : exec_segments_from false None l
    = map (fun p => (ph_offset p, ph_vaddr p)) (filter (fun p => ph_load p && ph_exec p) l)).
  { apply IH. intros; apply B; right; auto. }
  destruct (ph_load p && ph_exec p); auto.
  cbn [map]. rewrite E. rewrite Z.sub_0_r. unfold u64. rewrite Z.mod_small; auto.
  unfold w64. change 18446744073709551616 with (2 ^ 64). apply B; left; auto.
Qed.

(** For a kernel image the offsets are relative to the first such header. *)
Theorem C16_segments_of_kernel_headers (l : list phdr) (p0 : phdr) (rest : list phdr) :
  filter (fun p => ph_load p && ph_exec p) l = p0 :: rest ->
  (forall p, In p l -> 0 <= ph_offset p < 2 ^ 64) ->
  (forall p, In p rest -> ph_offset p0 <= ph_offset p) ->
  ReadLoadableExecSegmentInfo true l
  = map (fun p => (ph_offset p - ph_offset p0, ph_vaddr p)) (p0 :: rest).
Proof.
  intros F B O. unfold ReadLoadableExecSegmentInfo.
  assert (G : forall l k, (forall p, In p l -> 0 <= ph_offset p < 2 ^ 64) -> 0 <= k ->
     (forall p, In p (filter (fun p => ph_load p && ph_exec p) l) -> k <= ph_offset p) ->
     exec_segments_from true (Some k) l
     = map (fun p => (ph_offset p - k, ph_vaddr p)) (filter (fun p => ph_load p && ph_exec p) l)).
  { clear. induction l as [|p l IH]; intros k B K O; [reflexivity|].
    cbn [exec_segments_from filter] in *. destruct (ph_load p && ph_exec p).
    - cbn [map]. rewrite IH; auto.
      + unfold u64. rewrite Z.mod_small; auto.
        pose proof (B p (or_introl eq_refl)). pose proof (O p (or_introl eq_refl)).
        unfold w64. change 18446744073709551616 with (2 ^ 64). lia.
      + intros q Hq; apply B; right; auto.
      + intros q Hq; apply O; right; auto.
    - apply IH; auto. intros q Hq; apply B; right; auto. }
  revert F B. induction l as [|p l IH]; intros F B; [discriminate|].
  cbn [exec_segments_from filter] in *. destruct (ph_load p && ph_exec p).
  - inversion F; subst p rest. cbn [map]. rewrite G; auto.
    + unfold u64. rewrite Z.mod_small; auto. rewrite Z.sub_diag. unfold w64. lia.
    + intros q Hq; apply B; right; auto.
    + apply B; left; auto.
  - apply IH; auto. intros q Hq; apply B; right; auto.
Qed.

Example C16_nonvacuous :
  let segs := [ {| sg_off := 4096; sg_vaddr := 2097152 + 4096; sg_size := 1000 |};
                {| sg_off := 8192; sg_vaddr := 4194304; sg_size := 5000 |} ] in
  laid_out segs /\ Forall aligned segs /\
  get_static_vaddr (map seg_pair segs) 8200 = Ok 4194312 /\
  GetFileOffsetFromStaticVaddr (map seg_pair segs) 4194312 = Ok 8200.
Proof.
  cbn. repeat split; try lia; auto; try (repeat constructor); try (intros t [<-|[]]; cbn; lia);
    try (intros t []).
  destruct H as [<-|[]]; cbn; lia. destruct H as [<-|[]]; cbn; lia.
Qed.

(** * C17 *)
Section C17.
Context {Name : Type}.

(** Symbol tables reachable by adding ELF symbols: (name, address, size). *)
Definition read_symbols (l : list (Name * Z * Z)) : symtab Name :=
  fold_left (fun t '(n, a, s) => AddElfSymbol t n a s) l symtab0.

(** the kept symbols have non-overlapping ranges inside the address space *)
Definition disjoint_ranges (m : list (Z * (Name * Z))) : Prop :=
  (forall a n s, In (a, (n, s)) m -> 0 <= a /\ 0 < s /\ a + s < 2 ^ 64) /\
  (forall a n s a' n' s', In (a, (n, s)) m -> In (a', (n', s')) m -> a < a' -> a + s <= a').

Lemma read_symbols_snoc l n a s :
  read_symbols (l ++ [(n, a, s)]) = AddElfSymbol (read_symbols l) n a s.
Proof. unfold read_symbols. rewrite fold_left_app. reflexivity. Qed.

Lemma read_symbols_sorted l : zsorted (st_map (read_symbols l)).
Proof.
  induction l as [|[[n a] s] l IH] using rev_ind; [constructor|].
  rewrite read_symbols_snoc. unfold AddElfSymbol.
  destruct (zfind a (st_map (read_symbols l))) as [[f sz]|] eqn:E; auto.
  apply zinsert_sorted; auto.
Qed.

(** At every address the first symbol read there is the one kept; every later
    symbol at that address becomes an alias of it and nothing else does. *)
Theorem C17_first_symbol_kept (l : list (Name * Z * Z)) (addr : Z) :
  zfind addr (st_map (read_symbols l)) =
  match filter (fun '(_, a, _) => a =? addr) l with
  | [] => None
  | (n, _, s) :: _ => Some (n, s)
  end.
Proof.
  induction l as [|[[n a] s] l IH] using rev_ind; [reflexivity|].
  rewrite read_symbols_snoc, filter_app. unfold AddElfSymbol.
  pose proof (read_symbols_sorted l) as S.
  destruct (zfind a (st_map (read_symbols l))) as [[f sz]|] eqn:E; cbn [st_map].
  - rewrite IH in *. destruct (filter _ l) as [|[[n1 a1] s1] r] eqn:F; auto.
    cbn. destruct (a =? addr) eqn:Q; auto. assert (a = addr) by lia. subst.
    rewrite IH in E. discriminate.
  - rewrite zfind_zinsert by auto. rewrite E.
    destruct (addr =? a) eqn:Q.
    + assert (addr = a) by lia; subst. rewrite IH in E.
      destruct (filter _ l) as [|[[n1 a1] s1] r] eqn:F; [|discriminate].
      cbn. rewrite Z.eqb_refl. reflexivity.
    + rewrite IH. destruct (filter (fun '(_, a0, _) => a0 =? addr) l) as [|[[n1 a1] s1] r] eqn:F; auto.
      cbn. assert (a =? addr = false) as -> by lia. reflexivity.
Qed.

(** … and the aliases are exactly the symbols read at an address where another
    one had been read before; each is an alias of the first one read there. *)
Theorem C17_aliases (l : list (Name * Z * Z)) (first n : Name) :
  In (first, n) (st_alias (read_symbols l)) <->
  exists before after addr size earlier size0 rest,
    l = before ++ (n, addr, size) :: after /\
    filter (fun '(_, a, _) => a =? addr) before = (first, earlier, size0) :: rest.
Proof.
  induction l as [|[[m a] s] l IH] using rev_ind.
  - cbn. split; [tauto|]. intros (b & c & ad & sz & e & s0 & r & E & _). destruct b; discriminate.
  - rewrite read_symbols_snoc. pose proof (C17_first_symbol_kept l a) as K. unfold AddElfSymbol.
    assert (OLD : forall (x : Name * Z * Z),
       (exists before after addr size earlier size0 rest,
          l = before ++ (n, addr, size) :: after /\
          filter (fun '(_, a, _) => a =? addr) before = (first, earlier, size0) :: rest) ->
       (exists before after addr size earlier size0 rest,
          l ++ [x] = before ++ (n, addr, size) :: after /\
          filter (fun '(_, a, _) => a =? addr) before = (first, earlier, size0) :: rest)).
    { intros x (b & c & ad & sz & e & s0 & r & E & F). exists b, (c ++ [x]), ad, sz, e, s0, r.
      split; auto. rewrite E, <- app_assoc. reflexivity. }
    assert (NEW : (exists before after addr size earlier size0 rest,
          l ++ [(m, a, s)] = before ++ (n, addr, size) :: after /\
          filter (fun '(_, a, _) => a =? addr) before = (first, earlier, size0) :: rest) ->
       (exists before after addr size earlier size0 rest,
          l = before ++ (n, addr, size) :: after /\
          filter (fun '(_, a, _) => a =? addr) before = (first, earlier, size0) :: rest) \/
       (n = m /\ exists earlier size0 rest,
          filter (fun '(_, a', _) => a' =? a) l = (first, earlier, size0) :: rest)).
    { intros (b & c & ad & sz & e & s0 & r & E & F).
      destruct c as [|y c] using rev_ind.
      - apply app_inj_tail in E. destruct E as [-> E]. inversion E; subst. right. split; eauto.
      - rewrite app_comm_cons, app_assoc in E. apply app_inj_tail in E. destruct E as [E _].
        left. exists b, c, ad, sz, e, s0, r. auto. }
    destruct (zfind a (st_map (read_symbols l))) as [[f sz]|] eqn:E; cbn [st_alias].
    + destruct (filter _ l) as [|[[n1 a1] s1] r] eqn:F; [discriminate|]. inversion K; subst n1 s1.
      rewrite in_app_iff, IH. split.
      * intros [X|[X|[]]]; [apply OLD; exact X|]. inversion X; subst.
        exists l, [], a, s, a1, sz, r. auto.
      * intros X. apply NEW in X. destruct X as [X|(-> & e & s0 & r' & X)]; [left; exact X|].
        inversion X; subst. right. left. reflexivity.
    + destruct (filter (fun '(_, a0, _) => a0 =? a) l) as [|[[n1 a1] s1] r] eqn:F; [|discriminate].
      rewrite IH. split; [apply OLD|]. intros X. apply NEW in X.
      destruct X as [X|(-> & e & s0 & r' & X)]; [exact X|discriminate].
Qed.

(** Lookup of an address: exactly the kept symbol whose range contains it. *)
Theorem C17_symbol_containing_address (l : list (Name * Z * Z)) (addr : Z) (n : Name) (start stop : Z) :
  disjoint_ranges (st_map (read_symbols l)) ->
  (GetSymbolInfoByAddr (st_map (read_symbols l)) addr = Some (n, start, stop) <->
   exists size, In (start, (n, size)) (st_map (read_symbols l)) /\
     stop = start + size /\ start <= addr < start + size).
Proof.
  intros [D1 D2]. pose proof (read_symbols_sorted l) as S.
  set (m := st_map (read_symbols l)) in *. unfold GetSymbolInfoByAddr.
  assert (U : forall a k s, In (a, (k, s)) m -> u64 (a + s) = a + s).
  { intros a k s I. apply D1 in I. apply Z.mod_small.
    unfold w64. change 18446744073709551616 with (2 ^ 64). lia. }
  split.
  - destruct (zpred addr m) as [[a [k s]]|] eqn:P; [|discriminate].
    apply zpred_spec in P; auto. destruct P as (P1 & P2 & P3). cbn in *.
    rewrite (U _ _ _ P1).
    destruct ((a <=? addr) && (addr <? a + s)) eqn:E; [|discriminate].
    intros H; inversion H; subst. exists s. split; auto. split; auto. lia.
  - intros (size & I & -> & R).
    assert (P : zpred addr m = Some (start, (n, size))).
    { apply zpred_spec; auto. split; auto. split; [cbn; lia|].
      intros [a' [n' s']] I' L'. cbn in *.
      destruct (Z_le_gt_dec a' start); auto.
      pose proof (D2 _ _ _ _ _ _ I I' ltac:(lia)). lia. }
    rewrite P, (U _ _ _ I).
    assert ((start <=? addr) && (addr <? start + size) = true) as -> by lia. reflexivity.
Qed.

(** ... and nothing when no symbol contains it. *)
Theorem C17_no_symbol (l : list (Name * Z * Z)) (addr : Z) :
  disjoint_ranges (st_map (read_symbols l)) ->
  (GetSymbolInfoByAddr (st_map (read_symbols l)) addr = None <->
   forall start n size, In (start, (n, size)) (st_map (read_symbols l)) ->
     ~ (start <= addr < start + size)).
Proof.
  intros D. split.
  - intros N start n size I R.
    pose proof (proj2 (C17_symbol_containing_address l addr n start (start + size) D)) as H.
    rewrite H in N; [discriminate|]. exists size. auto.
  - intros N. destruct (GetSymbolInfoByAddr (st_map (read_symbols l)) addr) as [[[n s] e]|] eqn:E; auto.
    apply C17_symbol_containing_address in E; auto. destruct E as (size & I & _ & R).
    exfalso. eapply N; eauto.
Qed.
End C17.

(** The instruction map of a function returns, for every address of the
    function, the source stack of that address, and nothing elsewhere (also
    below the start, where the index computation wraps around). *)
Theorem C17_instruction_lookup {A} (stack_of : Z -> A) (start_addr end_addr addr : Z) :
  0 <= start_addr -> end_addr < 2 ^ 64 -> 0 <= addr < 2 ^ 64 ->
  inst_info (build_inst_map stack_of start_addr end_addr) addr =
  if (start_addr <=? addr) && (addr <? end_addr) then Some (stack_of addr) else None.
Proof.
  intros S E R. unfold build_inst_map. destruct (end_addr <=? start_addr) eqn:L.
  - assert ((start_addr <=? addr) && (addr <? end_addr) = false) as -> by lia.
    unfold inst_info, inst_lookup. cbn [fst snd]. change (zlen (@nil A)) with 0.
    assert (u64 (addr - start_addr) <? 0 = false) as ->; auto.
    apply Z.ltb_ge. apply Z.mod_pos_bound. unfold w64; lia.
  - unfold inst_info, inst_lookup. cbn [fst snd].
    assert (ZL : zlen (map (fun i => stack_of (start_addr + Z.of_nat i))
                  (seq 0 (Z.to_nat (end_addr - start_addr)))) = end_addr - start_addr).
    { unfold zlen. rewrite map_length, seq_length. lia. }
    rewrite ZL. destruct ((start_addr <=? addr) && (addr <? end_addr)) eqn:Q.
    + assert (U : u64 (addr - start_addr) = addr - start_addr).
      { apply Z.mod_small. unfold w64. change 18446744073709551616 with (2 ^ 64). lia. }
      rewrite U. assert (addr - start_addr <? end_addr - start_addr = true) as -> by lia.
      rewrite (map_nth_error _ (Z.to_nat (addr - start_addr))
                 (seq 0 (Z.to_nat (end_addr - start_addr))) (d := Z.to_nat (addr - start_addr))).
      * do 2 f_equal. lia.
      * rewrite nth_error_nth' with (d := 0%nat) by (rewrite seq_length; lia).
        rewrite seq_nth by lia. f_equal.
    + assert (u64 (addr - start_addr) <? end_addr - start_addr = false) as ->; auto.
      apply Z.ltb_ge. destruct (Z_le_gt_dec start_addr addr).
      * unfold u64. rewrite Z.mod_small; [lia|].
        unfold w64. change 18446744073709551616 with (2 ^ 64). lia.
      * assert (u64 (addr - start_addr) = addr - start_addr + 2 ^ 64).
        { symmetry. unfold u64, w64. change 18446744073709551616 with (2 ^ 64).
          apply Z.mod_unique with (-1); [left; lia|lia]. }
        lia.
Qed.

Example C17_nonvacuous :
  let l := [(10, 4096, 16); (11, 8192, 8); (12, 4096, 16)] in
  disjoint_ranges (st_map (read_symbols l)) /\
  GetSymbolInfoByAddr (st_map (read_symbols l)) 4100 = Some (10, 4096, 4112) /\
  st_alias (read_symbols l) = [(10, 12)].
Proof.
  cbn. split; [|split; reflexivity]. split.
  - intros a n s [H|[H|[]]]; inversion H; subst; lia.
  - intros a n s a' n' s' [H|[H|[]]] [H'|[H'|[]]]; inversion H; inversion H'; subst; lia.
Qed.

Print Assumptions C16_offset_vaddr_inverse.
Print Assumptions C16_segments_of_program_headers.
Print Assumptions C16_segments_of_kernel_headers.
Print Assumptions C17_first_symbol_kept.
Print Assumptions C17_aliases.
Print Assumptions C17_symbol_containing_address.
Print Assumptions C17_no_symbol.
Print Assumptions C17_instruction_lookup.
