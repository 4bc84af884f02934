(** The handler, and looking up addresses. *)
From Coq Require Import Sorted.
From Verif Require Import Base ByteModel ByteSpec DwLineModel DwLineSpec DwLineProofs DwLineLoop.

Section Handle.
Context (vaddr : Z).
Definition add_row (m : linemap) (r : Z * option place) : linemap :=
  if fst r <? vaddr then m
  else match snd r with None => map_AddActual (fst r) 0 m | Some p => map_AddLine (fst r) p m end.
Definition swap (f : list Z * Z) : Z * dname := (snd f, fst f).
Definition tables (D : list (list Z)) (F : list (list Z * Z)) : cu := {| dirs := [] :: D; files := (0, []) :: map swap F |}.
Lemma handle_all_app a b st : handle_all vaddr (a ++ b) st = let! st := handle_all vaddr a st in handle_all vaddr b st.
Proof. revert st. induction a as [|e a IH]; intros st; cbn [app handle_all obind]; [reflexivity|]. destruct (handle vaddr e st) as [st'| |]; cbn [obind]; [apply IH|reflexivity|reflexivity]. Qed.
Lemma handle_dirs l : forall D m, handle_all vaddr (dir_events (zlen D + 1) l) (tables D [], m) = Ok (tables (D ++ l) [], m).
Proof.
  induction l as [|s l IH]; intros D m; cbn [dir_events handle_all]; [rewrite app_nil_r; reflexivity|]. cbn [handle tables dirs]. rewrite zlen_cons. match goal with |- context [?a =? ?b] => destruct (Z.eqb_spec a b) as [_|NE]; [|exfalso; apply NE; apply Z.add_comm] end. cbn [obind].
  replace (zlen D + 1 + 1) with (zlen (D ++ [s]) + 1) by (rewrite zlen_app; reflexivity). etransitivity; [exact (IH (D ++ [s]) m)|]. rewrite <- app_assoc. reflexivity.
Qed.
Lemma s32_u32 d : 0 <= d < 2 ^ 31 -> s32 (u32 d) = d.
Proof. intros H. unfold s32, u32, w32. rewrite Z.mod_small by lia. destruct (Z.ltb_spec d (2 ^ 31)); lia. Qed.
Lemma zlen_map {A B} (f : A -> B) l : zlen (map f l) = zlen l.
Proof. unfold zlen. rewrite map_length. reflexivity. Qed.
Lemma handle_file D F m name k d mt len : 0 <= d <= zlen D -> zlen D < 2 ^ 31 -> k = zlen F + 1 \/ k = -1 ->
  handle vaddr (EvFile name k (u32 d) mt len) (tables D F, m) = Ok (tables D (F ++ [(name, d)]), m).
Proof.
  intros Hd HD K. cbn [handle tables dirs files]. assert (UD : u32 d = d) by (unfold u32, w32; apply Z.mod_small; lia). rewrite UD. rewrite !zlen_cons, zlen_map. destruct (Z.ltb_spec d (1 + zlen D)); [|lia].
  assert (KB : (k =? 1 + zlen F) || (k =? -1) = true) by (destruct K as [-> | ->]; [destruct (Z.eqb_spec (zlen F + 1) (1 + zlen F)); [reflexivity|lia]|apply orb_true_r]). rewrite KB. pose proof (s32_u32 d ltac:(lia)) as SD. rewrite UD in SD. rewrite SD. unfold tables. rewrite map_app. reflexivity.
Qed.
Lemma handle_files l : forall D F m, zlen D < 2 ^ 31 -> Forall (fun f => 0 <= snd (name_dir f) <= zlen D) l ->
  handle_all vaddr (file_events (zlen F + 1) l) (tables D F, m) = Ok (tables D (F ++ map name_dir l), m).
Proof.
  induction l as [|[[[s d] mt] n] l IH]; intros D F m HD FA; cbn [file_events handle_all map]; [rewrite app_nil_r; reflexivity|]. inversion FA as [|? ? F1 F2]; subst. cbn [name_dir fst snd] in F1. rewrite handle_file by (try assumption; left; reflexivity). cbn [obind]. replace (zlen F + 1 + 1) with (zlen (F ++ [(s, d)]) + 1) by (rewrite zlen_app; reflexivity). rewrite IH by assumption. rewrite <- app_assoc. reflexivity.
Qed.
Lemma handle_items l : forall D F m, zlen D < 2 ^ 31 -> Forall (fun f => 0 <= snd f <= zlen D) F -> files_exist (zlen D) (zlen F) l ->
  exists c, handle_all vaddr (map call_of l) (tables D F, m) = Ok (c, fold_left add_row (resolve D F l) m).
Proof.
  induction l as [|[r|r|name d mt len] l IH]; intros D F m HD FA FE; cbn [map handle_all resolve fold_left]; [exists (tables D F); reflexivity| | |]; cbn [files_exist] in FE.
  - destruct FE as (FR & FE). destruct (IH D F (add_row m (r_address r, Some (place_of D F r))) HD FA FE) as (c & E). exists c. cbn [call_of handle]. unfold ShouldAddAddress, add_row in *. cbn [fst snd] in *. rewrite negb_involutive.
    destruct (r_address r <? vaddr); [cbn [obind]; exact E|].
    set (f := nth (Z.to_nat (r_file r - 1)) F ([], 0)).
    assert (IN : In f F) by (apply nth_In; unfold zlen in FR; lia). rewrite Forall_forall in FA. pose proof (FA f IN) as FD.
    assert (NTH : nth (Z.to_nat (r_file r)) (files (tables D F)) (0, []) = swap f).
    { unfold tables. cbn [files]. replace (Z.to_nat (r_file r)) with (S (Z.to_nat (r_file r - 1))) by lia. cbn [nth]. change (0, []) with (swap ([], 0)). apply map_nth. }
    assert (LEN : zlen (files (tables D F)) = 1 + zlen F) by (unfold tables; cbn [files]; rewrite zlen_cons, zlen_map; reflexivity). rewrite LEN. destruct (Z.ltb_spec (r_file r) (1 + zlen F)) as [_|Q]; [|lia].
    rewrite NTH. unfold swap. assert (DL : zlen (dirs (tables D F)) = 1 + zlen D) by (unfold tables; cbn [dirs]; apply zlen_cons). rewrite DL.
    assert (UD : u64 (snd f) = snd f) by (unfold u64, w64; apply Z.mod_small; lia). rewrite UD. destruct (Z.ltb_spec (snd f) (1 + zlen D)) as [_|Q]; [|lia].
    assert (PL : (nth (Z.to_nat (snd f)) (dirs (tables D F)) [], fst f, r_line r, r_disc r) = place_of D F r).
    { unfold place_of. fold f. destruct f as [nm d]. cbn [fst snd] in *. unfold dir_name, tables. cbn [dirs]. destruct (Z.eqb_spec d 0) as [->|ND]; [reflexivity|]. replace (Z.to_nat d) with (S (Z.to_nat (d - 1))) by lia. reflexivity. }
    rewrite PL. cbn [obind]. exact E.
  - destruct (IH D F (add_row m (r_address r, None)) HD FA FE) as (c & E). exists c. cbn [call_of handle]. unfold ShouldAddAddress, add_row in *. cbn [fst snd] in *. rewrite negb_involutive. destruct (r_address r <? vaddr); cbn [obind]; exact E.
  - destruct FE as (FR & FE). cbn [call_of]. change (d mod 2 ^ 32) with (u32 d). rewrite handle_file by (try assumption; right; reflexivity). cbn [obind]. apply IH; [exact HD| |rewrite zlen_app; exact FE]. apply Forall_app. split; [exact FA|]. constructor; [exact FR|constructor].
Qed.
Lemma handle_unit u m : good_unit u -> exists c, handle_all vaddr (unit_calls u) (cu0, m) = Ok (c, fold_left add_row (unit_rows u) m).
Proof.
  intros (GP & SE & LD & LF & FD & FE). unfold unit_calls. rewrite handle_all_app. pose proof (handle_dirs (u_dirs u) [] m) as H1. change (zlen [] + 1) with 1 in H1. change (tables [] []) with cu0 in H1. rewrite H1. cbn [obind app]. rewrite handle_all_app. pose proof (handle_files (u_files u) (u_dirs u) [] m LD FD) as H2. change (zlen [] + 1) with 1 in H2. rewrite H2. cbn [obind app]. apply handle_items; [exact LD| |rewrite zlen_map; exact FE].
  apply Forall_map. exact FD.
Qed.
Lemma read_units_rows en asz wraps ls st : asz = 4 \/ asz = 8 -> forall us bufs m fuel,
  Forall2 (fun u buf => good_unit u /\ exists osz bs rest, encoded_unit en asz osz u bs /\ buf = bs ++ rest) us bufs ->
  Forall (fun buf => (3 * length buf + 2 <= fuel)%nat) bufs ->
  read_units vaddr en asz wraps ls st fuel bufs m = Some (Ok (fold_left add_row (concat (map unit_rows us)) m)).
Proof.
  intros ASZ us bufs m fuel F. revert m. induction F as [|u buf us bufs (GU & osz & bs & rest & EU & ->) F IH]; intros m FU; [reflexivity|]. inversion FU as [|? ? F1 F2]; subst. cbn [read_units map concat]. pose proof GU as (GP & SE & LD & LF & _). rewrite (start_read en asz osz wraps ASZ ls st u bs rest fuel EU GP LD LF SE) by (rewrite app_length in F1; lia). destruct (handle_unit u m GU) as (c & HU). rewrite HU. rewrite IH by exact F2. rewrite fold_left_app. reflexivity.
Qed.
End Handle.

(** *** The map *)
Notation row := (Z * option place)%type (only parsing).
Fixpoint last_write (rows : list row) (k : Z) : option (option place) :=
  match rows with [] => None | (a, v) :: r => match last_write r k with Some w => Some w | None => if a =? k then Some v else None end end.
Lemma last_write_app a b k : last_write (a ++ b) k = match last_write b k with Some v => Some v | None => last_write a k end.
Proof. induction a as [|[x v] a IH]; cbn [app last_write]; [destruct (last_write b k); reflexivity|]. rewrite IH. destruct (last_write b k); reflexivity. Qed.
Lemma last_write_none rows k : last_write rows k = None <-> ~ In k (map fst rows).
Proof.
  induction rows as [|[x v] rows IH]; cbn [last_write map In fst]; [tauto|]. destruct (last_write rows k).
  - split; [discriminate|]. intros N. exfalso. apply N. right. destruct (in_dec Z.eq_dec k (map fst rows)) as [Y|Y]; [exact Y|]. apply IH in Y. discriminate.
  - destruct (Z.eqb_spec x k); [split; [discriminate|intros N; exfalso; apply N; left; assumption]|]. split; [intros _ [Q|Q]; [contradiction|apply IH in Q; [exact Q|reflexivity]]|reflexivity].
Qed.
Lemma last_write_some rows k v : last_write rows k = Some v -> exists R1 R2, rows = R1 ++ (k, v) :: R2 /\ ~ In k (map fst R2).
Proof.
  revert v. induction rows as [|[x w] rows IH]; intros v H; cbn [last_write] in H; [discriminate|]. destruct (last_write rows k) as [z|] eqn:E.
  - injection H as ->. destruct (IH v eq_refl) as (R1 & R2 & -> & N). exists ((x, w) :: R1), R2. split; [reflexivity|exact N].
  - destruct (Z.eqb_spec x k) as [->|]; [|discriminate]. injection H as ->. exists [], rows. split; [reflexivity|]. apply last_write_none. exact E.
Qed.
Definition holds (rows : list row) (m : linemap) : Prop :=
  NoDup (map fst (line_map m)) /\
  forall k, match last_write rows k with
            | None => aget Z.eqb k (line_map m) = None
            | Some None => aget Z.eqb k (line_map m) = Some 0
            | Some (Some p) => exists n, aget Z.eqb k (line_map m) = Some n /\ 0 < n <= zlen (logical_lines m) /\ nth (Z.to_nat (n - 1)) (logical_lines m) ([], [], 0, 0) = p
            end.
Lemma holds_add vaddr rows m r : holds rows m -> vaddr <= fst r -> holds (rows ++ [r]) (add_row vaddr m r).
Proof.
  intros (ND & H) V. unfold add_row. destruct (Z.ltb_spec (fst r) vaddr); [lia|]. destruct r as [a [p|]]; cbn [fst snd].
  - split; [apply (NoDup_akeys_aset Z.eqb Z.eqb_spec); exact ND|]. intros k. rewrite last_write_app. cbn [last_write map_AddLine line_map logical_lines]. rewrite (aget_aset Z.eqb Z.eqb_spec). specialize (H k).
    destruct (Z.eqb_spec a k) as [->|N].
    + rewrite Z.eqb_refl. exists (zlen (logical_lines m ++ [p])). split; [reflexivity|]. rewrite zlen_app. change (zlen [p]) with 1. pose proof (zlen_nonneg (logical_lines m)). split; [lia|]. rewrite app_nth2 by (unfold zlen; lia). unfold zlen. replace (Z.to_nat (Z.of_nat (length (logical_lines m)) + 1 - 1) - length (logical_lines m))%nat with 0%nat by lia. reflexivity.
    + destruct (Z.eqb_spec k a); [congruence|]. destruct (last_write rows k) as [[q|]|]; [|exact H|exact H]. destruct H as (n0 & H1 & H2 & H3). exists n0. split; [exact H1|]. rewrite zlen_app. split; [change (zlen [p]) with 1; lia|]. rewrite app_nth1 by (unfold zlen in H2; lia). exact H3.
  - split; [apply (NoDup_akeys_aset Z.eqb Z.eqb_spec); exact ND|]. intros k. rewrite last_write_app. cbn [last_write map_AddActual line_map logical_lines]. rewrite (aget_aset Z.eqb Z.eqb_spec). specialize (H k). destruct (Z.eqb_spec a k) as [->|N]; [rewrite Z.eqb_refl; reflexivity|]. destruct (Z.eqb_spec k a); [congruence|exact H].
Qed.
Lemma holds_all vaddr rows : forall rows0 m, holds rows0 m -> holds (rows0 ++ filter (fun r => vaddr <=? fst r) rows) (fold_left (add_row vaddr) rows m).
Proof.
  induction rows as [|r rows IH]; intros rows0 m H; cbn [filter fold_left]; [rewrite app_nil_r; exact H|]. destruct (Z.leb_spec vaddr (fst r)) as [L|G].
  - change (rows0 ++ r :: filter (fun r => vaddr <=? fst r) rows) with (rows0 ++ [r] ++ filter (fun r => vaddr <=? fst r) rows). rewrite app_assoc. apply IH. apply holds_add; assumption.
  - assert (E : add_row vaddr m r = m) by (unfold add_row; destruct (Z.ltb_spec (fst r) vaddr); [reflexivity|lia]). rewrite E. apply IH. exact H.
Qed.
Lemma holds_nil : holds [] linemap0.
Proof. split; [constructor|]. intros k. reflexivity. Qed.
Lemma floor_spec a m : match floor_entry a m with
  | None => forall k, In k (map fst m) -> a < k
  | Some (k, v) => In (k, v) m /\ k <= a /\ forall k', In k' (map fst m) -> k' <= a -> k' <= k
  end.
Proof.
  induction m as [|[k v] m IH]; cbn [floor_entry]; [intros k []|]. destruct (floor_entry a m) as [[k' v']|].
  - destruct IH as (I1 & I2 & I3). destruct (Z.leb_spec k a), (Z.ltb_spec k' k); cbn [andb].
    + split; [left; reflexivity|]. split; [lia|]. intros x [<-|Hx] L; [cbn [fst]; lia|]. specialize (I3 x Hx L). lia.
    + split; [right; exact I1|]. split; [lia|]. intros x [<-|Hx] L; [cbn [fst]; lia|]. apply I3; assumption.
    + split; [right; exact I1|]. split; [lia|]. intros x [<-|Hx] L; [cbn [fst] in L; lia|]. apply I3; assumption.
    + split; [right; exact I1|]. split; [lia|]. intros x [<-|Hx] L; [cbn [fst] in L; lia|]. apply I3; assumption.
  - destruct (Z.leb_spec k a).
    + split; [left; reflexivity|]. split; [lia|]. intros x [<-|Hx] L; [cbn [fst]; lia|]. specialize (IH x Hx). lia.
    + intros x [<-|Hx]; [cbn [fst]; lia|]. apply IH. exact Hx.
Qed.
Lemma lookup_rows rows m x : holds rows m ->
  (forall k, In k (map fst rows) -> x < k) /\ lookup x m = Ok None \/
  exists k v, k <= x /\ (forall k', In k' (map fst rows) -> k' <= x -> k' <= k) /\ last_write rows k = Some v /\ lookup x m = Ok (with_source v).
Proof.
  intros (ND & H). assert (KE : forall k, In k (map fst (line_map m)) <-> In k (map fst rows)).
  { intros k. specialize (H k). destruct (last_write rows k) as [[p|]|] eqn:E.
    - destruct H as (n & H & _). apply (aget_In Z.eqb Z.eqb_spec) in H. split; intros _.
      + destruct (in_dec Z.eq_dec k (map fst rows)) as [Y|Y]; [exact Y|]. apply last_write_none in Y. congruence.
      + apply in_map_iff. exists (k, n). split; [reflexivity|exact H].
    - apply (aget_In Z.eqb Z.eqb_spec) in H. split; intros _.
      + destruct (in_dec Z.eq_dec k (map fst rows)) as [Y|Y]; [exact Y|]. apply last_write_none in Y. congruence.
      + apply in_map_iff. exists (k, 0). split; [reflexivity|exact H].
    - apply (aget_None_iff Z.eqb Z.eqb_spec) in H. apply last_write_none in E. split; intros Q; [exfalso; apply H; exact Q|contradiction]. }
  unfold lookup. pose proof (floor_spec x (line_map m)) as FS. destruct (floor_entry x (line_map m)) as [[k n]|].
  - right. destruct FS as (F1 & F2 & F3). pose proof (aget_NoDup_In Z.eqb Z.eqb_spec _ _ _ ND F1) as G. specialize (H k). exists k. destruct (last_write rows k) as [[p|]|].
    + exists (Some p). destruct H as (n' & H1 & H2 & H3). assert (n' = n) by congruence. subst n'. split; [exact F2|]. split; [intros k' Hk'; apply F3; apply KE; exact Hk'|]. split; [reflexivity|]. destruct (Z.eqb_spec n 0); [lia|]. destruct (Z.ltb_spec 0 n); [|lia]. destruct (Z.leb_spec n (zlen (logical_lines m))); [|lia]. cbn [andb]. rewrite H3. destruct p as [[[d f] line] disc]. cbn [with_source]. destruct (line =? 0); reflexivity.
    + exists None. assert (n = 0) by congruence. subst n. split; [exact F2|]. split; [intros k' Hk'; apply F3; apply KE; exact Hk'|]. split; reflexivity.
    + congruence.
  - left. split; [|reflexivity]. intros k Hk. apply FS. apply KE. exact Hk.
Qed.

(** *** Sequences *)
Lemma row_addresses s k v : good_sequence s -> In (k, v) (rows_of s) -> first_address s <= k <= snd s /\ (v <> None -> exists p, In (k, p) (fst s)).
Proof.
  intros (B & SO & L) H. unfold rows_of in H. apply in_app_or in H. destruct H as [H|[H|[]]].
  - apply in_map_iff in H. destruct H as ([a p] & E & H). injection E as <- <-. cbn [fst snd]. rewrite Forall_forall in B. split; [|intros _; exists p; exact H]. split; [|apply (B _ H)]. unfold first_address. destruct (fst s) as [|[a0 p0] l]; [destruct H|]. destruct H as [H|H]; [injection H as -> ->; cbn [fst]; lia|]. inversion SO as [|? ? _ F]; subst. rewrite Forall_forall in F. exact (F _ H).
  - injection H as <- <-. split; [lia|congruence].
Qed.
Lemma in_rows (L : list sequence) (k : Z) : In k (map fst (concat (map rows_of L))) -> exists s v, In s L /\ In (k, v) (rows_of s).
Proof.
  intros H. apply in_map_iff in H. destruct H as ([k' v] & <- & H). apply in_concat in H. destruct H as (l & Hl & H). apply in_map_iff in Hl. destruct Hl as (s & <- & Hs). exists s, v. split; [exact Hs|exact H].
Qed.
Lemma end_in_rows (L : list sequence) s : In s L -> In (snd s) (map fst (concat (map rows_of L))).
Proof.
  intros H. apply in_map_iff. exists (snd s, None). split; [reflexivity|]. apply in_concat. exists (rows_of s). split; [apply in_map; exact H|]. apply in_or_app. right. left. reflexivity.
Qed.
Lemma row_then_end (L : list sequence) R1 k p R2 : concat (map rows_of L) = R1 ++ (k, Some p) :: R2 -> exists s, In s L /\ In (k, p) (fst s) /\ In (snd s) (map fst R2).
Proof.
  revert R1. induction L as [|s L IH]; intros R1 E; cbn [map concat] in E; [destruct R1; discriminate|].
  assert (CASE : (exists R3, rows_of s = R1 ++ (k, Some p) :: R3 /\ R2 = R3 ++ concat (map rows_of L)) \/ exists R3, R1 = rows_of s ++ R3 /\ concat (map rows_of L) = R3 ++ (k, Some p) :: R2).
  { clear IH. revert E. generalize (rows_of s) (concat (map rows_of L)). intros A B. revert R1. induction A as [|x A IHA]; intros R1 E; cbn [app] in E; [right; exists R1; split; [reflexivity|exact E]|]. destruct R1 as [|y R1]; cbn [app] in E.
    - left. exists A. injection E as -> ->. split; reflexivity.
    - destruct (IHA R1 ltac:(congruence)) as [(R3 & E1 & E2)|(R3 & E1 & E2)]; [left; exists R3; split; [cbn [app]; f_equal; congruence|exact E2]|right; exists R3; split; [cbn [app]; f_equal; congruence|exact E2]]. }
  destruct CASE as [(R3 & E1 & E2)|(R3 & E1 & E2)].
  - exists s. split; [left; reflexivity|]. unfold rows_of in E1.
    assert (R3E : exists R4, R3 = R4 ++ [(snd s, None)] /\ In (k, Some p) (map (fun r => (fst r, Some (snd r))) (fst s))).
    { destruct (@exists_last _ ((k, Some p) :: R3) ltac:(discriminate)) as (R5 & y & E5). rewrite E5 in E1. rewrite app_assoc in E1. apply app_inj_tail in E1. destruct E1 as (E1 & E3). destruct R5 as [|z R5]; cbn [app] in E5; [injection E5 as E5 E6; congruence|]. injection E5 as E5 E6. exists R5. split; [congruence|]. rewrite E1. apply in_or_app. right. left. congruence. }
    destruct R3E as (R4 & -> & IN). apply in_map_iff in IN. destruct IN as ([a q] & EQ & IN). cbn [fst snd] in EQ. split; [assert (a = k) by congruence; assert (q = p) by congruence; subst; exact IN|]. rewrite E2, !map_app. apply in_or_app. left. apply in_or_app. right. left. reflexivity.
  - destruct (IH R3 E2) as (s' & A & B & C). exists s'. split; [right; exact A|]. split; assumption.
Qed.
(** the last row at or before x *)
Lemma row_at_spec l x p : StronglySorted (fun r r' : Z * place => fst r <= fst r') l -> row_at l x = Some p ->
  exists k, k <= x /\ In (k, p) l /\ (forall r, In r l -> fst r <= x -> fst r <= k) /\ last_write (map (fun r => (fst r, Some (snd r))) l) k = Some (Some p).
Proof.
  induction l as [|[a q] l IH]; intros SO H; cbn [row_at] in H; [discriminate|]. inversion SO as [|? ? S1 F]; subst. destruct (row_at l x) as [q'|] eqn:E.
  - injection H as ->. destruct (IH S1 eq_refl) as (k & K1 & K2 & K3 & K4). exists k. split; [exact K1|]. split; [right; exact K2|]. split; [|cbn [map last_write fst snd]; rewrite K4; reflexivity]. intros r [<-|Hr] L; [|apply K3; assumption]. rewrite Forall_forall in F. exact (F _ K2).
  - destruct (Z.leb_spec a x) as [L|]; [|discriminate]. injection H as ->. exists a. split; [exact L|]. split; [left; reflexivity|].
    assert (AB : forall r, In r l -> x < fst r).
    { clear - E. induction l as [|[b q] l IH]; intros r Hr; [destruct Hr|]. cbn [row_at] in E. destruct (row_at l x); [discriminate|]. destruct (Z.leb_spec b x); [discriminate|]. destruct Hr as [<-|Hr]; [cbn; lia|]. apply IH; [reflexivity|exact Hr]. }
    split; [intros r [<-|Hr] LR; [cbn; lia|specialize (AB r Hr); lia]|]. cbn [map last_write fst snd]. assert (NW : last_write (map (fun r => (fst r, Some (snd r))) l) a = None).
    { apply last_write_none. rewrite map_map. cbn [fst]. intros Q. apply in_map_iff in Q. destruct Q as (r & <- & Hr). specialize (AB r Hr). lia. }
    rewrite NW, Z.eqb_refl. reflexivity.
Qed.
Lemma row_at_some l x : match l with [] => False | r :: _ => fst r <= x end -> exists p, row_at l x = Some p.
Proof. destruct l as [|[a q] l]; [intros []|]. cbn [fst row_at]. intros H. destruct (row_at l x) as [p|]; [exists p; reflexivity|]. exists q. destruct (Z.leb_spec a x); [reflexivity|lia]. Qed.

Lemma lookup_sequences L m : holds (concat (map rows_of L)) m -> Forall good_sequence L -> all_apart L -> no_late_end L ->
  (forall s x, In s L -> in_sequence s x -> lookup x m = Ok (with_source (row_at (fst s) x))) /\
  (forall x, (forall s, In s L -> ~ in_sequence s x) -> lookup x m = Ok None).
Proof.
  intros HO GS AP NL. rewrite Forall_forall in GS. split.
  - intros s x Hs (X1 & X2). pose proof (GS s Hs) as (B & SO & LE). unfold first_address in X1.
    destruct (row_at_some (fst s) x) as (p & RA). { destruct (fst s) as [|r l] eqn:E; [lia|exact X1]. } 
    destruct (row_at_spec _ _ _ SO RA) as (k & K1 & K2 & K3 & K4). rewrite RA.
    assert (K0 : first_address s <= k) by (apply (row_addresses s k (Some p)); [exact (GS s Hs)|unfold rows_of; apply in_or_app; left; apply in_map_iff; exists (k, p); split; [reflexivity|exact K2]]).
    assert (APS : forall t, In t L -> t <> s -> apart s t).
    { clear - AP Hs. induction L as [|u L IH]; intros t Ht NE; [destruct Hs|]. cbn [all_apart] in AP. destruct AP as (F & AP). rewrite Forall_forall in F. destruct Hs as [->|Hs], Ht as [->|Ht]; [congruence|exact (F t Ht)| |exact (IH AP Hs t Ht NE)]. destruct (F s Hs) as [Q|Q]; [right; exact Q|left; exact Q]. }
    (* the greatest key *)
    assert (MAX : forall k', In k' (map fst (concat (map rows_of L))) -> k' <= x -> k' <= k).
    { intros k' H' L'. apply in_rows in H'. destruct H' as (t & v & Ht & Hv). destruct (row_addresses t k' v (GS t Ht) Hv) as (R1 & R2). unfold rows_of in Hv. apply in_app_or in Hv. 
      assert (DEC : s = t \/ snd t <= first_address s \/ snd s <= first_address t).
      { destruct (Z_le_gt_dec (snd t) (first_address s)); [auto|]. destruct (Z_le_gt_dec (snd s) (first_address t)); [auto|]. left.
        assert (ED : {s = t} + {s <> t}) by (repeat decide equality). destruct ED as [|NE]; [assumption|]. destruct (APS t Ht ltac:(congruence)) as [Q|Q]; lia. }
      destruct DEC as [<-|[D|D]]; [|lia|lia]. destruct Hv as [Hv|[Hv|[]]]; [|injection Hv as <- <-; lia]. apply in_map_iff in Hv. destruct Hv as (r & E & Hr). injection E as <- _. apply K3; assumption. }
    (* who wrote last *)
    assert (LW : last_write (concat (map rows_of L)) k = Some (Some p)).
    { destruct (in_split _ _ Hs) as (L1 & L2 & EL). rewrite EL, map_app, concat_app. cbn [map concat]. rewrite !last_write_app.
      assert (N2 : last_write (concat (map rows_of L2)) k = None).
      { apply last_write_none. intros Q. apply in_rows in Q. destruct Q as (t & v & Ht & Hv). assert (HtL : In t L) by (rewrite EL; apply in_or_app; right; right; exact Ht). destruct (row_addresses t k v (GS t HtL) Hv) as (R1 & R2).
        assert (A2 : apart s t /\ snd t <> first_address s).
        { clear - AP NL EL Ht. subst L. induction L1 as [|u L1 IH]; cbn [app all_apart no_late_end] in AP, NL; [|apply IH; tauto]. destruct AP as (F & _), NL as (F' & _). rewrite Forall_forall in F, F'. split; [apply F|apply F']; exact Ht. }
        destruct A2 as ([Q|Q] & A2); lia. }
      rewrite N2. unfold rows_of at 1. rewrite last_write_app. cbn [last_write]. destruct (Z.eqb_spec (snd s) k); [lia|]. rewrite K4. reflexivity. }
    destruct (lookup_rows _ _ x HO) as [(Q & _)|(k2 & v & Q1 & Q2 & Q3 & Q4)].
    + assert (KI : In k (map fst (concat (map rows_of L)))) by (destruct (in_dec Z.eq_dec k (map fst (concat (map rows_of L)))) as [Y|Y]; [exact Y|apply last_write_none in Y; congruence]). specialize (Q k KI). lia.
    + assert (KI : In k (map fst (concat (map rows_of L)))) by (destruct (in_dec Z.eq_dec k (map fst (concat (map rows_of L)))) as [Y|Y]; [exact Y|apply last_write_none in Y; congruence]).
      assert (KI2 : In k2 (map fst (concat (map rows_of L)))) by (destruct (in_dec Z.eq_dec k2 (map fst (concat (map rows_of L)))) as [Y|Y]; [exact Y|apply last_write_none in Y; congruence]).
      assert (k2 = k) by (specialize (Q2 k KI K1); specialize (MAX k2 KI2 Q1); lia). subst k2. rewrite LW in Q3. injection Q3 as <-. exact Q4.
  - intros x NX. destruct (lookup_rows _ _ x HO) as [(_ & Q)|(k & v & Q1 & Q2 & Q3 & Q4)]; [exact Q|]. destruct v as [p|]; [|exact Q4]. exfalso.
    destruct (last_write_some _ _ _ Q3) as (R1 & R2 & E & N). destruct (row_then_end L R1 k p R2 E) as (s & S1 & S2 & S3).
    assert (SK : first_address s <= k <= snd s) by (apply (row_addresses s k (Some p) (GS s S1)); unfold rows_of; apply in_or_app; left; apply in_map_iff; exists (k, p); split; [reflexivity|exact S2]).
    assert (SX : snd s <= x) by (specialize (NX s S1); unfold in_sequence in NX; lia). specialize (Q2 (snd s) (end_in_rows L s S1) SX). assert (k = snd s) by lia. subst k. contradiction.
Qed.
