From Verif Require Import Base ByteSpec DwarfRangesSpec DwarfRangesProofs SymbolModel SymbolProofs ElfModel ElfSpec ElfProofs.

Section R.
  Variable page : Z.
  Variable f : list Z.
  Variable el : elf.
  Variables (is64 : bool) (h : ehdr) (shs : list shdr) (phs : list segment) (stridx : Z).
  Hypothesis R : reads is64 h shs phs stridx el.
  Hypothesis SI : 0 <= stridx < zlen shs.

  Lemma header_of_nth k s : 0 <= k -> nth_error shs (Z.to_nat k) = Some s -> header_of el k = Ok s.
  Proof.
    intros K N. unfold header_of. destruct (Z.ltb_spec k 0); [lia|].
    destruct R as (_ & _ & -> & _). rewrite N. reflexivity.
  Qed.
  Lemma map_section s : page > 0 -> 0 <= sh_size s -> mappable page s -> MapSection page s = Ok tt.
  Proof.
    intros P S M. unfold MapSection. pose proof (Z.mod_pos_bound (sh_offset s) page ltac:(lia)).
    destruct (Z.eqb_spec (sh_size s + sh_offset s mod page) 0) as [E|]; [|reflexivity].
    destruct M; lia.
  Qed.
  Hypothesis page_pos : page > 0.
  Hypothesis FS : Forall (shdr_fits is64) shs.
  Hypothesis STR : exists str, nth_error shs (Z.to_nat stridx) = Some str /\ mappable page str.

  Lemma size_pos s i : nth_error shs i = Some s -> 0 <= sh_size s.
  Proof.
    intros N. apply nth_error_In in N. rewrite Forall_forall in FS. apply FS in N. unfold shdr_fits, num in N.
    destruct N as (_ & _ & _ & _ & _ & X & _). lia.
  Qed.

  Lemma section_name s n : section_named f shs stridx s n -> GetSectionName page f el (sh_name s) = Ok n.
  Proof.
    intros (str & N & L & S). unfold GetSectionName. destruct STR as (str' & N' & M).
    rewrite N' in N; injection N as ->. destruct R as (_ & _ & _ & -> & -> & _).
    destruct (Z.ltb_spec stridx (zlen shs)); [|lia]. cbn [negb].
    rewrite (header_of_nth _ _ (proj1 SI) N'). cbn [obind].
    rewrite map_section; [|assumption|eapply size_pos; eassumption|assumption]. cbn [obind].
    destruct (Z.ltb_spec (sh_size str) (sh_name s)); [lia|]. apply string_at_is, S.
  Qed.
  Lemma get_section k s n : 0 <= k -> nth_error shs (Z.to_nat k) = Some s -> section_named f shs stridx s n -> mappable page s ->
    GetSection page el k = Ok s.
  Proof.
    intros K N (str & NS & L & _) M. unfold GetSection. destruct STR as (str' & N' & MS).
    rewrite N' in NS; injection NS as ->.
    assert (KL : k < zlen shs).
    { assert (X : (Z.to_nat k < length shs)%nat) by (apply nth_error_Some; congruence). unfold zlen. lia. }
    destruct R as (_ & _ & _ & -> & -> & _).
    destruct (Z.ltb_spec k (zlen shs)); [|lia]. cbn [negb].
    rewrite (header_of_nth _ _ K N). cbn [obind].
    destruct (Z.eqb_spec k stridx) as [E|E]; cbn [obind].
    - rewrite map_section; [reflexivity|assumption|eapply size_pos; eassumption|assumption].
    - destruct (Z.ltb_spec stridx (zlen shs)); [|lia]. cbn [negb].
      rewrite (header_of_nth _ _ (proj1 SI) N'). cbn [obind].
      rewrite (map_section str); [|assumption|eapply size_pos; eassumption|assumption]. cbn [obind].
      destruct (Z.ltb_spec (sh_size str) (sh_name s)); [lia|]. cbn [obind].
      rewrite map_section; [reflexivity|assumption|eapply size_pos; eassumption|assumption].
  Qed.

  Lemma by_type_spec t (post : list shdr) : forall (pre : list shdr), shs = pre ++ post ->
    (Forall (fun s => sh_type s <> t) post /\ by_type el (length post) (zlen pre) t = Ok None) \/
    (exists before sec after, post = before ++ sec :: after /\ Forall (fun s => sh_type s <> t) before /\ sh_type sec = t /\
       by_type el (length post) (zlen pre) t = Ok (Some (zlen pre + zlen before))).
  Proof.
    induction post as [|s post IH]; intros pre E.
    - left. split; [constructor|reflexivity].
    - assert (N : nth_error shs (Z.to_nat (zlen pre)) = Some s).
      { rewrite E. unfold zlen. rewrite Nat2Z.id, nth_error_app2, Nat.sub_diag by lia. reflexivity. }
      cbn [length by_type]. rewrite (header_of_nth _ _ (zlen_pos pre) N). cbn [obind].
      destruct (Z.eqb_spec (sh_type s) t) as [T|T].
      + right. exists [], s, post. split; [reflexivity|]. split; [constructor|]. split; [exact T|].
        unfold zlen at 3. cbn [length]. rewrite Z.add_0_r. reflexivity.
      + destruct (IH (pre ++ [s])) as [[F B]|(b & sec & a & E' & F & T' & B)].
        * rewrite <- app_assoc. exact E.
        * left. split; [constructor; assumption|]. rewrite zlen_app' in B. exact B.
        * right. exists (s :: b), sec, a. split; [cbn; rewrite E'; reflexivity|]. split; [constructor; assumption|].
          split; [exact T'|]. rewrite zlen_app' in B. etransitivity; [exact B|]. f_equal. f_equal.
          unfold zlen; cbn [length]. lia.
  Qed.
End R.

Lemma has_prefix_app p x : has_prefix p (p ++ x) = true.
Proof.
  unfold has_prefix. rewrite firstn_app, firstn_all, Nat.sub_diag. cbn [firstn]. rewrite app_nil_r.
  destruct (name_eqb_spec p p); [reflexivity|contradiction].
Qed.
Lemma has_prefix_inv p n : has_prefix p n = true -> exists x, n = p ++ x.
Proof.
  unfold has_prefix. destruct (name_eqb_spec (firstn (length p) n) p) as [E|]; [|discriminate].
  intros _. exists (skipn (length p) n). rewrite <- E at 1. symmetry. apply firstn_skipn.
Qed.
Lemma names_match n sn : SectionNamesMatch n sn = true <-> names_section n sn.
Proof.
  unfold SectionNamesMatch, names_section.
  destruct (has_prefix dot_debug n) eqn:E1; [|].
  - destruct (has_prefix_inv _ _ E1) as (x & ->). destruct (has_prefix dot_zdebug sn) eqn:E2; cbn [andb].
    + destruct (has_prefix_inv _ _ E2) as (y & ->).
      change (skipn 7 (dot_debug ++ x)) with x. change (skipn 8 (dot_zdebug ++ y)) with y.
      destruct (name_eqb_spec x y) as [->|N]; split; intros H; try discriminate.
      * right. exists y. split; reflexivity.
      * reflexivity.
      * exfalso. destruct H as [H|(z & H1 & H2)]; [discriminate H|]. injection H1 as ->. injection H2 as ->. apply N; reflexivity.
    + destruct (name_eqb_spec (dot_debug ++ x) sn) as [H|H]; split; intros H'; try discriminate.
      * left. symmetry; exact H.
      * reflexivity.
      * exfalso. destruct H' as [H'|(z & H1 & H2)]; [apply H; symmetry; exact H'|].
        change [46; 122; 100; 101; 98; 117; 103; 95] with dot_zdebug in H2. rewrite H2, has_prefix_app in E2. discriminate.
  - cbn [andb]. destruct (name_eqb_spec n sn) as [H|H]; split; intros H'; try discriminate.
    + left. symmetry; exact H.
    + reflexivity.
    + exfalso. destruct H' as [H'|(z & H1 & H2)]; [apply H; symmetry; exact H'|].
      change [46; 100; 101; 98; 117; 103; 95] with dot_debug in H1. rewrite H1, has_prefix_app in E1. discriminate.
Qed.

Lemma string_is_det f pos n n' : string_is f pos n -> string_is f pos n' -> n = n'.
Proof. intros A B. apply string_at_is in A, B. congruence. Qed.

Section R2.
  Variable page : Z.
  Variable f : list Z.
  Variable el : elf.
  Variables (is64 : bool) (h : ehdr) (shs : list shdr) (phs : list segment) (stridx : Z).
  Hypothesis R : reads is64 h shs phs stridx el.
  Hypothesis SI : 0 <= stridx < zlen shs.
  Hypothesis page_pos : page > 0.
  Hypothesis FS : Forall (shdr_fits is64) shs.
  Hypothesis STR : exists str, nth_error shs (Z.to_nat stridx) = Some str /\ mappable page str.
  Hypothesis NAMED : forall s, In s shs -> exists n, section_named f shs stridx s n.
  Variable dwp : bool.
  Let idx (k : Z) := if dwp then zlen shs - k - 1 else k.

  Lemma by_name_spec n fuel : forall k, 0 <= k -> k + Z.of_nat fuel = zlen shs ->
    ((forall i s, k <= i < zlen shs -> ~ section_matches f shs stridx n (Z.to_nat (idx i)) s) ->
       by_name page f el dwp fuel k n = Ok None) /\
    (forall j s, k <= j < zlen shs -> section_matches f shs stridx n (Z.to_nat (idx j)) s -> mappable page s ->
       (forall i s', k <= i < j -> ~ section_matches f shs stridx n (Z.to_nat (idx i)) s') ->
       by_name page f el dwp fuel k n = Ok (Some s)).
  Proof.
    induction fuel as [|fuel IH]; intros k K L; cbn [by_name].
    - split; [reflexivity|]. intros j s J. lia.
    - assert (X : (if dwp then GetNumSections (el_hdr el) (el_first el) - k - 1 else k) = idx k).
      { unfold idx. destruct R as (_ & _ & _ & -> & _). reflexivity. }
      rewrite X. clear X.
      assert (IX : 0 <= idx k < zlen shs) by (unfold idx; destruct dwp; lia).
      destruct (nth_error shs (Z.to_nat (idx k))) as [s0|] eqn:N.
      2:{ apply nth_error_None in N. unfold zlen in IX. lia. }
      rewrite (header_of_nth el is64 h shs phs stridx R _ _ (proj1 IX) N). cbn [obind].
      destruct (NAMED s0 (nth_error_In _ _ N)) as (sn & SN).
      rewrite (section_name page f el is64 h shs phs stridx R SI page_pos FS STR _ _ SN). cbn [obind].
      assert (M : forall s', section_matches f shs stridx n (Z.to_nat (idx k)) s' -> s' = s0 /\ SectionNamesMatch n sn = true).
      { intros s' (sn' & N' & SN' & M). rewrite N in N'. injection N' as <-. split; [reflexivity|].
        apply names_match. destruct SN as (str & A & _ & B), SN' as (str' & A' & _ & B'). rewrite A in A'. injection A' as <-.
        rewrite (string_is_det _ _ _ _ B B'). exact M. }
      destruct (IH (k + 1) ltac:(lia) ltac:(lia)) as [IH1 IH2].
      destruct (SectionNamesMatch n sn) eqn:E.
      + assert (SM : section_matches f shs stridx n (Z.to_nat (idx k)) s0).
        { exists sn. split; [exact N|]. split; [exact SN|]. apply names_match, E. }
        split.
        * intros H. exfalso. apply (H k s0); [lia|exact SM].
        * intros j s J SJ MJ H. destruct (Z.eq_dec j k) as [->|D]; [|exfalso; apply (H k s0); [lia|exact SM]].
          destruct (M _ SJ) as [-> _].
          rewrite (get_section page f el is64 h shs phs stridx R SI page_pos FS STR _ _ _ (proj1 IX) N SN MJ). reflexivity.
      + split.
        * intros H. apply IH1. intros i s I. apply H. lia.
        * intros j s J SJ MJ H. destruct (Z.eq_dec j k) as [->|D]; [destruct (M _ SJ); discriminate|].
          apply (IH2 j s); [lia|exact SJ|exact MJ|]. intros i s' I. apply H. lia.
  Qed.
End R2.

(** *** symbols *)
Section Sy.
  Variable page : Z.
  Variable f : list Z.
  Variable el : elf.
  Variables (is64 : bool) (h : ehdr) (shs : list shdr) (phs : list segment) (stridx : Z).
  Hypothesis R : reads is64 h shs phs stridx el.
  Variable flt : Z -> elfsym -> outcome bool.
  Variable keep : name -> elfsym -> bool.
  Definition adjusted (e : name * elfsym) : name * elfsym :=
    (fst e, {| st_name := st_name (snd e); st_info := st_info (snd e); st_other := st_other (snd e); st_shndx := st_shndx (snd e);
               st_value := AdjustSymbolValue el (snd e); st_size := st_size (snd e) |}).

  Lemma visit_spec sec str syms named : forall i, 0 <= i ->
    sh_entsize sec = sym_size is64 ->
    at_offset f (sh_offset sec + i * sym_size is64) (concat (map (enc_sym is64) syms)) ->
    Forall (sym_fits is64) syms -> (i + zlen syms) * sym_size is64 < 2 ^ 31 ->
    named_symbols f str syms named ->
    (forall s n, In s syms -> In (n, s) named -> string_is f (sh_offset str + st_name s) n ->
       flt (sh_offset str + st_name s) s = Ok (keep n s)) ->
    visit f el flt (length syms) i sec str = Ok (map adjusted (filter (fun e => keep (fst e) (snd e)) named)).
  Proof.
    intros i I ES A FT SZ NS. revert i I A SZ.
    induction NS as [|s l r Z0 NS IH|s l n r Z0 SI NS IH]; intros i I A SZ FL; cbn [length visit]; [reflexivity| |].
    - inversion FT as [|x y F1 F2]; subst x y. cbn [map concat] in A. apply at_app in A. destruct A as [A1 A2].
      rewrite zlen_enc_sym in A2.
      assert (B : zlen (s :: l) = 1 + zlen l) by (unfold zlen; cbn [length]; lia). rewrite B in SZ.
      pose proof (zlen_pos l).
      assert (P : sh_offset sec + (i * sh_entsize sec) mod 2 ^ 32 = sh_offset sec + i * sym_size is64).
      { rewrite ES, Z.mod_small; [reflexivity|]. destruct is64; cbn [sym_size] in *; lia. }
      assert (E64 : el_64 el = is64) by apply R. rewrite E64, P.
      rewrite (pread_at _ _ _ _ A1 (zlen_enc_sym _ _)), get_enc_sym by exact F1. cbv zeta.
      rewrite Z0. cbn [Z.eqb]. apply IH; [exact F2|lia| |destruct is64; cbn [sym_size] in *; lia|].
      + replace (sh_offset sec + (i + 1) * sym_size is64) with (sh_offset sec + i * sym_size is64 + sym_size is64) by ring. exact A2.
      + intros; apply FL; [right; assumption|assumption|assumption].
    - inversion FT as [|x y F1 F2]; subst x y. cbn [map concat] in A. apply at_app in A. destruct A as [A1 A2].
      rewrite zlen_enc_sym in A2.
      assert (B : zlen (s :: l) = 1 + zlen l) by (unfold zlen; cbn [length]; lia). rewrite B in SZ.
      pose proof (zlen_pos l).
      assert (P : sh_offset sec + (i * sh_entsize sec) mod 2 ^ 32 = sh_offset sec + i * sym_size is64).
      { rewrite ES, Z.mod_small; [reflexivity|]. destruct is64; cbn [sym_size] in *; lia. }
      assert (E64 : el_64 el = is64) by apply R. rewrite E64, P.
      rewrite (pread_at _ _ _ _ A1 (zlen_enc_sym _ _)), get_enc_sym by exact F1. cbv zeta.
      destruct (Z.eqb_spec (st_name s) 0); [contradiction|].
      rewrite (FL s n (or_introl eq_refl) (or_introl eq_refl) SI). cbn [obind].
      assert (Q : visit f el flt (length l) (i + 1) sec str = Ok (map adjusted (filter (fun e => keep (fst e) (snd e)) r))).
      { apply IH; [exact F2|lia| |destruct is64; cbn [sym_size] in *; lia|].
        + replace (sh_offset sec + (i + 1) * sym_size is64) with (sh_offset sec + i * sym_size is64 + sym_size is64) by ring. exact A2.
        + intros; apply FL; [right; assumption|right; assumption|assumption]. }
      cbn [filter fst snd]. destruct (keep n s).
      + rewrite (string_at_is _ _ _ SI). cbn [obind]. rewrite Q. reflexivity.
      + exact Q.
  Qed.

  Hypothesis SI : 0 <= stridx < zlen shs.
  Hypothesis page_pos : page > 0.
  Hypothesis FS : Forall (shdr_fits is64) shs.
  Hypothesis STR : exists str, nth_error shs (Z.to_nat stridx) = Some str /\ mappable page str.
  Hypothesis NAMED : forall s, In s shs -> exists n, section_named f shs stridx s n.
  Hypothesis SMALL : zlen shs < 2 ^ 24.

  Lemma visit_type_spec t named : symbols_of is64 page f shs t named ->
    (forall s n str, In (n, s) named -> In str shs -> 0 <= st_name s -> 52 <= sh_offset str ->
       string_is f (sh_offset str + st_name s) n -> flt (sh_offset str + st_name s) s = Ok (keep n s)) ->
    VisitSymbolsOfType page f el flt t = Ok (map adjusted (filter (fun e => keep (fst e) (snd e)) named)).
  Proof.
    intros S FL. unfold VisitSymbolsOfType.
    assert (N : Z.to_nat (GetNumSections (el_hdr el) (el_first el)) = length shs).
    { destruct R as (_ & _ & _ & -> & _). unfold zlen. lia. }
    rewrite N. clear N.
    destruct (by_type_spec el is64 h shs phs stridx R t shs [] eq_refl) as [[F B]|(b & sec & a & E & F & T & B)];
      change (zlen (@nil shdr)) with 0 in B; rewrite B; cbn [obind].
    - destruct S as [[_ ->]|(b & sec & a & str & syms & -> & _ & T & _)]; [reflexivity|].
      exfalso. rewrite Forall_forall in F. apply (F sec); [apply in_elt|exact T].
    - destruct S as [[F' _]|(b' & sec' & a' & str & syms & E' & F' & T' & LK & NL & M1 & M2 & ST & NS)].
      { exfalso. rewrite E in F'. rewrite Forall_forall in F'. apply (F' sec); [apply in_elt|exact T]. }
      assert (Q : b' = b /\ sec' = sec).
      { clear - E E' F F' T T'. rewrite E in E'. clear E. revert b F E'. induction b' as [|x b' IH]; intros [|y b] F E'.
        - cbn in E'. injection E' as -> _. auto.
        - cbn in E'. injection E' as E1 _. inversion F; subst. contradiction.
        - cbn in E'. injection E' as E1 _. inversion F'; subst. contradiction.
        - cbn in E'. injection E' as -> E'. inversion F; inversion F'; subst. destruct (IH ltac:(assumption) b ltac:(assumption) E') as [-> ->]. auto. }
      destruct Q as [-> ->].
      rewrite Z.add_0_l.
      assert (NK : nth_error shs (Z.to_nat (zlen b)) = Some sec).
      { rewrite E. unfold zlen. rewrite Nat2Z.id, nth_error_app2, Nat.sub_diag by lia. reflexivity. }
      destruct (NAMED sec (nth_error_In _ _ NK)) as (sn & SN).
      rewrite (get_section page f el is64 h shs phs stridx R SI page_pos FS STR _ _ _ (zlen_pos b) NK SN M1). cbn [obind].
      pose proof ST as (SF & SA & SE & SS & SB & SO).
      rewrite SE. assert (SP : (if is64 then 24 else 16) = sym_size is64) by (destruct is64; reflexivity). rewrite SP in *.
      assert (SP0 : 0 < sym_size is64) by (destruct is64; cbn; lia).
      destruct (Z.eqb_spec (sym_size is64) 0); [lia|].
      destruct (Z.eqb_spec (sh_link sec) 0); [lia|].
      rewrite to_int_small by lia.
      destruct (NAMED str (nth_error_In _ _ NL)) as (sn' & SN').
      rewrite (get_section page f el is64 h shs phs stridx R SI page_pos FS STR _ _ _ (Z.lt_le_incl _ _ (proj1 LK)) NL SN' M2). cbn [obind].
      assert (NN : Z.to_nat (to_int (sh_size sec / sym_size is64)) = length syms).
      { rewrite SS, SE, Z.mul_comm, Z.div_mul by lia. rewrite to_int_small; [unfold zlen; lia|].
        pose proof (zlen_pos syms). rewrite SS, SE in SB. nia. }
      rewrite NN. apply visit_spec; [lia|exact SE| |exact SF| |exact NS|].
      + rewrite Z.mul_0_l, Z.add_0_r. exact SA.
      + rewrite SS, SE in SB. lia.
      + intros s n1 HI H0 HS. apply FL; [exact H0|eapply nth_error_In; exact NL| |exact SO|exact HS].
        rewrite Forall_forall in SF. apply SF in HI. destruct HI as (HI & _). unfold num in HI. lia.
  Qed.
End Sy.

(** *** the filter of the symbol map *)
Lemma ends_with_spec n suf : ends_with n suf = true <-> exists p, n = p ++ suf.
Proof.
  unfold ends_with. destruct (Z.ltb_spec (zlen n) (zlen suf)) as [L|L].
  - split; [discriminate|]. intros (p & ->). rewrite zlen_app' in L. pose proof (zlen_pos p). lia.
  - destruct (name_eqb_spec (skipn (length n - length suf) n) suf) as [E|E]; split; try discriminate.
    + intros _. exists (firstn (length n - length suf) n). rewrite <- E at 2. symmetry. apply firstn_skipn.
    + reflexivity.
    + intros (p & ->). exfalso. apply E. rewrite app_length, Nat.add_sub. rewrite skipn_app, skipn_all, Nat.sub_diag. reflexivity.
Qed.
Lemma drop_digits_split r : exists d, r = d ++ drop_digits r /\ Forall (fun b => is_digit b = true) d /\
  match drop_digits r with [] => True | b :: _ => is_digit b = false end.
Proof.
  induction r as [|b r IH]; [exists []; cbn; auto|]. cbn [drop_digits]. destruct (is_digit b) eqn:E.
  - destruct IH as (d & E1 & F & M). exists (b :: d). cbn. rewrite <- E1. auto.
  - exists []. cbn. auto.
Qed.
Lemma is_digit_spec b : is_digit b = true <-> 48 <= b <= 57.
Proof. unfold is_digit. rewrite Bool.andb_true_iff, !Z.leb_le. tauto. Qed.
Lemma drop_digits_app d c r : Forall (fun b => is_digit b = true) d -> is_digit c = false -> drop_digits (d ++ c :: r) = c :: r.
Proof. induction d as [|b d IH]; intros F C; cbn; [rewrite C; reflexivity|]. inversion F as [|x y F1 F2]; subst x y. rewrite F1. auto. Qed.
Lemma matches_part_spec n : matches_part n = true <-> part_suffix n.
Proof.
  unfold matches_part, part_suffix. split.
  - destruct (rev n) as [|b r] eqn:E; [discriminate|]. rewrite Bool.andb_true_iff. intros [D W].
    apply ends_with_spec in W. destruct W as (p & W).
    destruct (drop_digits_split (b :: r)) as (d & E1 & F & _).
    exists p, (rev d). 
    assert (X : n = rev (drop_digits (b :: r)) ++ rev d) by (rewrite <- rev_app_distr, <- E1, <- E, rev_involutive; reflexivity).
    rewrite X, W. unfold s_part. rewrite <- app_assoc. split; [reflexivity|]. split.
    + intros Y. apply (f_equal (@length Z)) in Y. rewrite rev_length in Y. destruct d as [|x d]; [|discriminate].
      cbn [app] in E1. cbn [drop_digits] in E1. rewrite D in E1.
      apply (f_equal (@length Z)) in E1. cbn [length] in E1.
      destruct (drop_digits_split r) as (d' & E2 & _). rewrite E2 in E1 at 1. rewrite app_length in E1. lia.
    + apply Forall_rev. eapply Forall_impl; [|exact F]. intros a. apply is_digit_spec.
  - intros (p & d & -> & ND & F).
    assert (F' : Forall (fun b => is_digit b = true) (rev d)).
    { apply Forall_rev. eapply Forall_impl; [|exact F]. intros a. apply is_digit_spec. }
    assert (E : rev (p ++ [46; 95; 95; 112; 97; 114; 116; 46] ++ d) = rev d ++ 46 :: [116; 114; 97; 112; 95; 95; 46] ++ rev p).
    { rewrite rev_app_distr, rev_app_distr. cbn [rev app]. rewrite <- !app_assoc. reflexivity. }
    rewrite E. destruct (rev d) as [|b r] eqn:E'.
    { elim ND. rewrite <- (rev_involutive d), E'. reflexivity. }
    rewrite drop_digits_app by (first [exact F'|reflexivity]). cbn [app]. inversion F' as [|x y F1 F2]; subst x y. rewrite F1. cbn [andb].
    apply ends_with_spec. exists p. cbn [rev]. rewrite rev_involutive, <- !app_assoc. reflexivity.
Qed.

Lemma string_tail f pos a b : string_is f pos (a ++ b) -> string_is f (pos + zlen a) b.
Proof.
  intros (F & A). split; [apply Forall_app in F; apply F|]. rewrite <- app_assoc in A. apply at_app in A. apply A.
Qed.

(** the first NUL ends the string, wherever it starts *)
Lemma cstring_len bs k : nth_error bs k = Some 0 -> exists n, cstring bs = Ok n /\ (length n <= k)%nat.
Proof.
  revert k; induction bs as [|b bs IH]; intros [|k] H; try discriminate; cbn in H.
  - injection H as ->. exists []. cbn. auto.
  - cbn [cstring]. destruct (b =? 0); [exists []; cbn; split; [reflexivity|lia]|].
    destruct (IH k H) as (n & -> & L). exists (b :: n). cbn. split; [reflexivity|lia].
Qed.

Definition keep_function (n : name) (s : elfsym) : bool :=
  name_eqb n s_fs ||
  (negb (st_size s =? 0) && ((st_type s =? 2) || ends_with n s_cold || matches_part n) && negb (ends_with n s_plt)).

Lemma keep_function_spec n s : 0 <= st_info s -> keep_function n s = true <-> function_symbol n s.
Proof.
  intros ST. unfold keep_function, function_symbol.
  assert (T : st_type s = st_info s mod 16).
  { unfold st_type. change 15 with (Z.ones 4). rewrite Z.land_ones by lia. reflexivity. }
  rewrite T. rewrite Bool.orb_true_iff, !Bool.andb_true_iff, !Bool.orb_true_iff, !Bool.negb_true_iff.
  rewrite matches_part_spec, ends_with_spec, Z.eqb_eq, Z.eqb_neq.
  assert (N : name_eqb n s_fs = true <-> n = fs_discriminator_symbol).
  { change fs_discriminator_symbol with s_fs. destruct (name_eqb_spec n s_fs); split; congruence. }
  assert (P : ends_with n s_plt = false <-> ~ plt_suffix n).
  { unfold plt_suffix. change [64; 112; 108; 116] with s_plt. rewrite <- ends_with_spec. destruct (ends_with n s_plt); split; congruence. }
  rewrite N, P. unfold cold_suffix. change [46; 99; 111; 108; 100] with s_cold. clear; tauto.
Qed.

Lemma symbol_filter_spec f pos s n : 4 <= pos -> string_is f pos n -> (zlen n < 4 -> at_offset f (pos - 1) [0]) ->
  symbol_filter f pos s = Ok (keep_function n s).
Proof.
  intros P S SH. unfold symbol_filter, keep_function. rewrite (string_at_is _ _ _ S). cbn [obind].
  destruct (name_eqb n s_fs); [reflexivity|]. cbn [orb].
  destruct (st_size s =? 0); [reflexivity|]. cbn [negb andb].
  destruct ((st_type s =? 2) || ends_with n s_cold || matches_part n); [|reflexivity]. cbn [negb andb].
  destruct (Z.ltb_spec (zlen n) 4) as [L|L].
  - destruct (SH L) as (pre & post & E & Z0).
    unfold string_at. pose proof (zlen_pos n). destruct (Z.ltb_spec (pos + zlen n - 4) 0); [lia|].
    assert (K : nth_error (skipn (Z.to_nat (pos + zlen n - 4)) f) (Z.to_nat (3 - zlen n)) = Some 0).
    { assert (NF : forall A (l : list A) a k, nth_error (skipn a l) k = nth_error l (a + k)).
      { intros A l a; revert l; induction a; intros [|x l] k; cbn; auto. destruct k; reflexivity. }
      rewrite NF. rewrite E. rewrite nth_error_app2 by (unfold zlen in *; lia).
      replace (Z.to_nat (pos + zlen n - 4) + Z.to_nat (3 - zlen n) - length pre)%nat with O by (unfold zlen in *; lia). reflexivity. }
    destruct (cstring_len _ _ K) as (t & -> & LT). cbn [obind].
    assert (W : ends_with n s_plt = false).
    { unfold ends_with. change (zlen s_plt) with 4. destruct (Z.ltb_spec (zlen n) 4); [reflexivity|lia]. }
    rewrite W. destruct (name_eqb_spec t s_plt) as [->|]; [|reflexivity].
    exfalso. change (length s_plt) with 4%nat in LT. lia.
  - assert (SP : n = firstn (length n - 4) n ++ skipn (length n - 4) n) by (symmetry; apply firstn_skipn).
    assert (LP : zlen (firstn (length n - 4) n) = zlen n - 4).
    { unfold zlen in *. rewrite firstn_length. lia. }
    rewrite SP in S. apply string_tail in S. rewrite LP in S.
    replace (pos + zlen n - 4) with (pos + (zlen n - 4)) by ring. rewrite (string_at_is _ _ _ S). cbn [obind].
    unfold ends_with. change (zlen s_plt) with 4. change (length s_plt) with 4%nat.
    destruct (Z.ltb_spec (zlen n) 4); [lia|]. reflexivity.
Qed.

(** *** build ids *)
Lemma round_up_pad4 bs : round_up_to_4 (zlen bs) = zlen (pad4 bs).
Proof.
  unfold round_up_to_4, pad4. change (-4) with (Z.lnot (Z.ones 2)). rewrite <- Z.ldiff_land, Z.ldiff_ones_r by lia.
  rewrite Z.shiftl_mul_pow2, Z.shiftr_div_pow2 by lia. change (2 ^ 2) with 4.
  rewrite zlen_app'. unfold zlen. rewrite repeat_length.
  pose proof (Nat.mod_upper_bound (length bs) 4 ltac:(lia)) as U.
  pose proof (Nat.div_mod (length bs) 4 ltac:(lia)) as D.
  set (q := (length bs / 4)%nat) in *. set (r := (length bs mod 4)%nat) in *. clearbody q r. rewrite D.
  destruct r as [|[|[|[|r]]]]; [| | | |lia]; cbn [Nat.sub Nat.modulo Nat.divmod fst snd];
    [replace (Z.of_nat (4 * q + 0) + 3) with (Z.of_nat q * 4 + 3) by lia
    |replace (Z.of_nat (4 * q + 1) + 3) with ((Z.of_nat q + 1) * 4 + 0) by lia
    |replace (Z.of_nat (4 * q + 2) + 3) with ((Z.of_nat q + 1) * 4 + 1) by lia
    |replace (Z.of_nat (4 * q + 3) + 3) with ((Z.of_nat q + 1) * 4 + 2) by lia];
    rewrite Z.div_add_l by lia; cbn; lia.
Qed.
Lemma hexdigit_lower d : 0 <= d < 16 -> hexdigit d = lower_hex d.
Proof.
  intros H. assert (X : In d (map Z.of_nat (seq 0 16))).
  { apply in_map_iff. exists (Z.to_nat d). split; [lia|]. apply in_seq. lia. }
  cbn in X. repeat (destruct X as [<-|X]; [reflexivity|]). contradiction.
Qed.
Lemma hex_spec bs : Forall is_byte bs -> hex bs = hex_of bs.
Proof.
  intros F. unfold hex, hex_of. rewrite flat_map_concat_map. f_equal. apply map_ext_in. intros b Hb.
  rewrite Forall_forall in F. specialize (F b Hb). unfold is_byte in F.
  rewrite Z.shiftr_div_pow2 by lia. change 15 with (Z.ones 4). rewrite Z.land_ones by lia. change (2 ^ 4) with 16.
  rewrite !hexdigit_lower; [reflexivity| |].
  - apply Z.mod_pos_bound; lia.
  - split; [apply Z.div_pos; lia|apply Z.div_lt_upper_bound; lia].
Qed.
(** the identifiers among notes *)
Definition note_id (n : note) : list (list Z) :=
  let '(nm, t, d) := n in if name_eqb nm [71; 78; 85; 0] && (t =? 3) && (zlen d <=? 20) then [d] else [].
Lemma note_id_spec n d : In d (note_id n) <-> is_build_id n d.
Proof.
  destruct n as [[nm t] e]. unfold note_id, is_build_id.
  destruct (name_eqb_spec nm [71; 78; 85; 0]) as [->|N]; [|split; [contradiction|intros ([= -> _ _] & _); contradiction]].
  destruct (Z.eqb_spec t 3) as [->|N]; [|split; [contradiction|intros ([= -> _] & _); contradiction]].
  destruct (Z.leb_spec (zlen e) 20); cbn [andb]; split.
  - intros [->|[]]. auto.
  - intros ([= ->] & _). left; reflexivity.
  - contradiction.
  - intros ([= ->] & L). lia.
Qed.
Lemma zlen_enc_note nm t d : zlen (enc_note (nm, t, d)) = 12 + zlen (pad4 nm) + zlen (pad4 d).
Proof. unfold enc_note. rewrite !zlen_app', !zlen_le_bytes. lia. Qed.

Lemma notes_spec f size ns : forall fuel pos,
  Forall note_fits ns -> at_offset f pos (concat (map enc_note ns)) ->
  zlen (concat (map enc_note ns)) <= size -> (length (concat (map enc_note ns)) < fuel)%nat ->
  notes f fuel pos (pos + zlen (concat (map enc_note ns))) size = Ok (map hex (concat (map note_id ns))).
Proof.
  induction ns as [|[[nm t] d] ns IH]; intros fuel pos FT A SZ FU; destruct fuel as [|fuel]; [cbn in FU; lia| |lia|].
  - cbn [notes map concat]. change (zlen (@nil Z)) with 0. destruct (Z.ltb_spec (pos + 12) (pos + 0)); [lia|reflexivity].
  - cbn [map concat] in A, SZ, FU |- *. rewrite app_length in FU.
    pose proof A as A0. apply at_app in A0. destruct A0 as [A1 A2].
    inversion FT as [|x y F1 F2]; subst x y. destruct F1 as (N1 & N2 & N3 & B1 & B2).
    assert (LE : zlen (enc_note (nm, t, d)) = 12 + zlen (pad4 nm) + zlen (pad4 d)) by apply zlen_enc_note.
    rewrite zlen_app' in SZ |- *. rewrite LE in A2, SZ |- *.
    assert (P4n : zlen nm <= zlen (pad4 nm)) by (unfold pad4; rewrite zlen_app'; pose proof (zlen_pos (repeat 0 ((4 - length nm mod 4) mod 4))); lia).
    assert (P4d : zlen d <= zlen (pad4 d)) by (unfold pad4; rewrite zlen_app'; pose proof (zlen_pos (repeat 0 ((4 - length d mod 4) mod 4))); lia).
    pose proof (zlen_pos nm); pose proof (zlen_pos d); pose proof (zlen_pos (concat (map enc_note ns))).
    cbn [notes].
    destruct (Z.ltb_spec (pos + 12) (pos + (12 + zlen (pad4 nm) + zlen (pad4 d) + zlen (concat (map enc_note ns))))) as [LT|GE].
    2:{ (* nothing but an empty note is left *)
        assert (E : nm = [] /\ d = [] /\ concat (map enc_note ns) = []).
        { unfold zlen in *. split; [destruct nm; [reflexivity|cbn [length] in *; lia]|].
          split; [destruct d; [reflexivity|cbn [length] in *; lia]|]. destruct (concat (map enc_note ns)); [reflexivity|cbn [length] in *; lia]. }
        destruct E as (-> & -> & E3). destruct ns as [|[[nm' t'] d'] ns].
        - reflexivity.
        - exfalso. cbn [map concat] in E3. apply (f_equal zlen) in E3. rewrite zlen_app', zlen_enc_note in E3.
          change (zlen (@nil Z)) with 0 in E3.
          pose proof (zlen_pos (pad4 nm')); pose proof (zlen_pos (pad4 d')); pose proof (zlen_pos (concat (map enc_note ns))). lia. }
    assert (AH : at_offset f pos (le_bytes 4 (zlen nm) ++ le_bytes 4 (zlen d) ++ le_bytes 4 t)).
    { unfold enc_note in A1. rewrite !app_assoc in A1. apply at_app in A1. destruct A1 as [A1 _]. apply at_app in A1.
      destruct A1 as [A1 _]. rewrite <- app_assoc in A1. exact A1. }
    rewrite (pread_at _ _ _ 12 AH) by (rewrite !zlen_app', !zlen_le_bytes; reflexivity).
    assert (G1 : field (le_bytes 4 (zlen nm) ++ le_bytes 4 (zlen d) ++ le_bytes 4 t) 0 4 = zlen nm) by fgo.
    assert (G2 : field (le_bytes 4 (zlen nm) ++ le_bytes 4 (zlen d) ++ le_bytes 4 t) 4 4 = zlen d) by fgo.
    assert (G3 : field (le_bytes 4 (zlen nm) ++ le_bytes 4 (zlen d) ++ le_bytes 4 t) 8 4 = t) by fgo.
    rewrite G1, G2, G3. rewrite !round_up_pad4.
    assert (AN : at_offset f (pos + 12) (pad4 nm)).
    { unfold enc_note in A1. apply at_app in A1. destruct A1 as [_ A1]. apply at_app in A1. destruct A1 as [_ A1].
      apply at_app in A1. destruct A1 as [_ A1]. apply at_app in A1. destruct A1 as [A1 _].
      rewrite !zlen_le_bytes in A1. replace (pos + 12) with (pos + Z.of_nat 4 + Z.of_nat 4 + Z.of_nat 4) by lia. exact A1. }
    assert (AD : at_offset f (pos + 12 + zlen (pad4 nm)) d).
    { unfold enc_note in A1. apply at_app in A1. destruct A1 as [_ A1]. apply at_app in A1. destruct A1 as [_ A1].
      apply at_app in A1. destruct A1 as [_ A1]. apply at_app in A1. destruct A1 as [_ A1].
      rewrite !zlen_le_bytes in A1. unfold pad4 at 2 in A1. apply at_app in A1. destruct A1 as [A1 _].
      replace (pos + 12 + zlen (pad4 nm)) with (pos + Z.of_nat 4 + Z.of_nat 4 + Z.of_nat 4 + zlen (pad4 nm)) by lia. exact A1. }
    assert (RST : notes f fuel (pos + 12 + zlen (pad4 nm) + zlen (pad4 d))
                    (pos + (12 + zlen (pad4 nm) + zlen (pad4 d) + zlen (concat (map enc_note ns)))) size =
                  Ok (map hex (concat (map note_id ns)))).
    { replace (pos + (12 + zlen (pad4 nm) + zlen (pad4 d) + zlen (concat (map enc_note ns))))
        with (pos + 12 + zlen (pad4 nm) + zlen (pad4 d) + zlen (concat (map enc_note ns))) by ring.
      apply IH; [exact F2| |lia|unfold zlen in LE; lia].
      replace (pos + 12 + zlen (pad4 nm) + zlen (pad4 d)) with (pos + (12 + zlen (pad4 nm) + zlen (pad4 d))) by ring. exact A2. }
    cbn [note_id]. rewrite map_app.
    destruct (name_eqb_spec nm [71; 78; 85; 0]) as [->|NN].
    + change (zlen [71; 78; 85; 0] =? 4) with true. change (pad4 [71; 78; 85; 0]) with [71; 78; 85; 0] in *.
      change (zlen [71; 78; 85; 0]) with 4 in *.
      destruct (Z.leb_spec 16 size) as [L16|L16].
      2:{ assert (E : zlen d = 0) by lia. 
          assert (zlen (pad4 d) + 16 <= size) by lia. pose proof (zlen_pos (pad4 d)). lia. }
      destruct (Z.eqb_spec t 3) as [->|N3']; cbn [andb]; [|exact RST].
      destruct (Z.leb_spec (zlen d) 20) as [L20|L20]; cbn [andb]; [|exact RST].
      rewrite (pread_at _ _ _ 4 AN) by reflexivity. change (name_eqb [71; 78; 85; 0] [71; 78; 85; 0]) with true. cbv iota.
      replace (pos + 12 + 4) with (pos + 16) in AD by ring.
      rewrite (pread_at _ _ _ _ AD eq_refl). rewrite RST. reflexivity.
    + cbn [andb]. destruct ((16 <=? size) && (t =? 3) && (zlen nm =? 4) && (zlen d <=? 20)) eqn:C; [|exact RST].
      rewrite !Bool.andb_true_iff in C. destruct C as [[[_ _] C] _]. apply Z.eqb_eq in C.
      assert (PN : pad4 nm = nm).
      { unfold pad4. unfold zlen in C. replace (length nm) with 4%nat by lia. cbn. apply app_nil_r. }
      rewrite PN in *. rewrite (pread_at _ _ _ 4 AN C).
      destruct (name_eqb_spec nm [71; 78; 85; 0]); [contradiction|]. exact RST.
Qed.

Lemma build_ids_concat ns ids : build_ids ns ids -> concat (map note_id ns) = ids.
Proof.
  induction 1 as [|n d ns ids B _ IH|n ns ids B _ IH]; [reflexivity| |]; cbn [map concat]; rewrite IH.
  - destruct B as (-> & L). unfold note_id. cbn [name_eqb]. 
    change (name_eqb [71; 78; 85; 0] [71; 78; 85; 0]) with true. change (3 =? 3) with true. cbn [andb].
    destruct (Z.leb_spec (zlen d) 20); [reflexivity|lia].
  - destruct (note_id n) as [|d l] eqn:E; [reflexivity|]. exfalso. apply (B d). apply note_id_spec. rewrite E. left; reflexivity.
Qed.
Lemma file_notes_skip f page before : forall l ns, Forall (fun s => sh_type s <> 7) before ->
  file_notes f page (before ++ l) ns -> file_notes f page l ns.
Proof.
  induction before as [|s b IH]; intros l ns F H; [exact H|]. inversion F as [|x y F1 F2]; subst x y. cbn [app] in H.
  inversion H; subst; [|contradiction]. apply IH; assumption.
Qed.
Lemma file_notes_none f page l ns : Forall (fun s => sh_type s <> 7) l -> file_notes f page l ns -> ns = [].
Proof. intros F H. rewrite <- (app_nil_r l) in H. apply file_notes_skip in H; [|exact F]. inversion H. reflexivity. Qed.
Lemma file_notes_bytes f page l ns : file_notes f page l ns -> Forall note_fits ns.
Proof. induction 1; auto. apply Forall_app. auto. Qed.

Section Bu.
  Variable page : Z.
  Variable f : list Z.
  Variable el : elf.
  Variables (is64 : bool) (h : ehdr) (shs : list shdr) (phs : list segment) (stridx : Z).
  Hypothesis R : reads is64 h shs phs stridx el.
  Hypothesis SI : 0 <= stridx < zlen shs.
  Hypothesis page_pos : page > 0.
  Hypothesis FS : Forall (shdr_fits is64) shs.
  Hypothesis STR : exists str, nth_error shs (Z.to_nat stridx) = Some str /\ mappable page str.
  Hypothesis NAMED : forall s, In s shs -> exists n, section_named f shs stridx s n.

  Lemma note_sections_spec fuel : forall pre post ns, shs = pre ++ post -> (length post < fuel)%nat -> file_notes f page post ns ->
    note_sections page f el fuel (zlen pre) = Ok (map hex (concat (map note_id ns))).
  Proof.
    induction fuel as [|fuel IH]; intros pre post ns E L FN; [lia|]. cbn [note_sections].
    unfold GetSectionIndexByType.
    assert (N : Z.to_nat (GetNumSections (el_hdr el) (el_first el) - zlen pre) = length post).
    { destruct R as (_ & _ & _ & -> & _). rewrite E, zlen_app'. unfold zlen. lia. }
    rewrite N. clear N.
    destruct (by_type_spec el is64 h shs phs stridx R 7 post pre E) as [[F B]|(b & sec & a & E' & F & T & B)]; rewrite B; cbn [obind].
    - rewrite (file_notes_none _ _ _ _ F FN). reflexivity.
    - assert (NK : nth_error shs (Z.to_nat (zlen pre + zlen b)) = Some sec).
      { rewrite E, E', app_assoc. unfold zlen. rewrite nth_error_app2 by (rewrite app_length; lia).
        replace (Z.to_nat (Z.of_nat (length pre) + Z.of_nat (length b)) - length (pre ++ b))%nat with O by (rewrite app_length; lia). reflexivity. }
      rewrite E' in FN. apply file_notes_skip in FN; [|exact F].
      inversion FN as [|s l n0 X|s l nn ns' T' M NF A SZ FN' EQ]; subst; [contradiction|].
      destruct (NAMED sec (nth_error_In _ _ NK)) as (sn & SN).
      pose proof (zlen_pos pre); pose proof (zlen_pos b).
      assert (K0 : 0 <= zlen pre + zlen b) by lia.
      rewrite (get_section page f el is64 h _ phs stridx R SI page_pos FS STR _ _ _ K0 NK SN M). cbn [obind].
      rewrite SZ. rewrite (notes_spec f _ nn _ _ NF A); [|lia|unfold zlen; lia]. cbn [obind].
      assert (Q : note_sections page f el fuel (zlen pre + zlen b + 1) = Ok (map hex (concat (map note_id ns')))).
      { replace (zlen pre + zlen b + 1) with (zlen (pre ++ b ++ [sec])) by (rewrite !zlen_app'; unfold zlen at 3; cbn; lia).
        apply (IH _ a); [rewrite <- !app_assoc; reflexivity|rewrite app_length in L; cbn [length] in L; lia|exact FN']. }
      rewrite Q. cbn [obind]. rewrite map_app, concat_app, map_app. reflexivity.
  Qed.
  Lemma get_build_id ns ids : file_notes f page shs ns -> build_ids ns ids ->
    ElfModel.GetBuildId page f el = Ok (match ids with [d] => hex_of d | _ => [] end).
  Proof.
    intros FN B. unfold ElfModel.GetBuildId.
    change 0 with (zlen (@nil shdr)).
    rewrite (note_sections_spec _ [] shs ns eq_refl); [|destruct R as (_ & _ & _ & -> & _); unfold zlen; lia|exact FN].
    cbn [obind]. rewrite (build_ids_concat _ _ B). f_equal.
    destruct ids as [|d [|d' ids]]; [reflexivity| |reflexivity]. cbn [map].
    apply hex_spec. pose proof (file_notes_bytes _ _ _ _ FN) as FB.
    assert (I : In d (concat (map note_id ns))) by (rewrite (build_ids_concat _ _ B); left; reflexivity).
    apply in_concat in I. destruct I as (x & Hx & Hd). apply in_map_iff in Hx. destruct Hx as (n & <- & Hn).
    rewrite Forall_forall in FB. specialize (FB n Hn). apply note_id_spec in Hd. destruct Hd as (-> & _). apply FB.
  Qed.
End Bu.
