(** Proofs: the cluster file can be read back. *)
From Coq Require Import String Ascii DecimalString DecimalN.
From Verif Require Import Base LayoutSpec LayoutProofs WriterModel WriterSpec WriterProofs.

(** * Splitting *)
Lemma free_app bad a b : free bad (a ++ b) <-> free bad a /\ free bad b.
Proof.
  unfold free. split.
  - intros H. split; intros x Hx; apply H; apply in_app_iff; auto.
  - intros [H1 H2] x Hx. apply in_app_iff in Hx as [Hx|Hx]; auto.
Qed.
Lemma free_cons bad x a : free bad (x :: a) <-> ~ In x bad /\ free bad a.
Proof.
  unfold free. split.
  - intros H. split; [apply H; left; reflexivity|intros y Hy; apply H; right; exact Hy].
  - intros [H1 H2] y [<-|Hy]; auto.
Qed.
Lemma free_weaken bad bad' a : incl bad' bad -> free bad a -> free bad' a.
Proof. intros I H x Hx Hb. exact (H x Hx (I x Hb)). Qed.
Lemma split_app sep x r : free [sep] x -> split sep (x ++ sep :: r) = x :: split sep r.
Proof.
  induction x as [|b x IH]; intros H; cbn [app split]; [rewrite Z.eqb_refl; reflexivity|]. apply free_cons in H as [H1 H2].
  destruct (Z.eqb_spec b sep) as [->|NE]; [exfalso; apply H1; left; reflexivity|]. rewrite IH by exact H2. reflexivity.
Qed.
Lemma split_free sep x : free [sep] x -> split sep x = [x].
Proof.
  induction x as [|b x IH]; intros H; cbn [split]; [reflexivity|]. apply free_cons in H as [H1 H2].
  destruct (Z.eqb_spec b sep) as [->|NE]; [exfalso; apply H1; left; reflexivity|]. rewrite IH by exact H2. reflexivity.
Qed.
Lemma join_cons sep x y l : join sep (x :: y :: l) = x ++ sep ++ join sep (y :: l).
Proof. reflexivity. Qed.
Lemma split_join sep l : l <> [] -> (forall x, In x l -> free [sep] x) -> split sep (join [sep] l) = l.
Proof.
  induction l as [|x l IH]; intros NE H; [congruence|]. destruct l as [|y l]; [apply split_free, H; left; reflexivity|].
  rewrite join_cons. cbn [app]. rewrite split_app by (apply H; left; reflexivity). rewrite IH; [reflexivity|discriminate|intros; apply H; right; assumption].
Qed.
Lemma free_join bad sep l : free bad sep -> (forall x, In x l -> free bad x) -> free bad (join sep l).
Proof.
  intros HS. induction l as [|x l IH]; intros H; [intros b []|]. destruct l as [|y l]; [apply H; left; reflexivity|]. rewrite join_cons. apply free_app. split; [apply H; left; reflexivity|]. apply free_app. split; [exact HS|apply IH; intros; apply H; right; assumption].
Qed.
Lemma split_lines ls : (forall l, In l ls -> free [10] l) -> removelast (split 10 (lines ls)) = ls.
Proof.
  intros H. assert (E : split 10 (lines ls) = ls ++ [[]]); [|rewrite E; apply removelast_last].
  induction ls as [|l ls IH]; [reflexivity|]. change (lines (l :: ls)) with ((l ++ [10]) ++ lines ls). rewrite <- app_assoc. cbn [app]. rewrite split_app by (apply H; left; reflexivity). rewrite IH by (intros; apply H; right; assumption). reflexivity.
Qed.

(** * Numbers *)
Lemma unbytes s : string_of_list_ascii (map (fun b => ascii_of_nat (Z.to_nat b)) (bytes s)) = s.
Proof.
  unfold bytes. rewrite map_map. rewrite <- (string_of_list_ascii_of_string s) at 2. f_equal. rewrite <- (map_id (list_ascii_of_string s)) at 2. apply map_ext. intros c. rewrite Nat2Z.id. apply ascii_nat_embedding.
Qed.
Lemma number_decimal n : 0 <= n -> number (decimal n) = Some n.
Proof.
  intros H. unfold number. assert (NN : decimal n <> []).
  { unfold decimal. rewrite <- digits_string. intros X. assert (U : N.to_uint (Z.to_N n) = Decimal.Nil) by (destruct (N.to_uint (Z.to_N n)); [reflexivity|discriminate..]).
    pose proof (DecimalN.Unsigned.of_to (Z.to_N n)) as O. rewrite U in O. cbn in O. rewrite <- O in U. discriminate. }
  destruct (decimal n) as [|b t] eqn:E; [congruence|]. rewrite <- E. unfold decimal. rewrite unbytes, NilEmpty.usu, DecimalN.Unsigned.of_to. f_equal. lia.
Qed.
Lemma digits_range u b : In b (digits u) -> 48 <= b <= 57.
Proof. induction u; cbn [digits In]; intros H; [destruct H|destruct H as [<-|H]; [lia|auto]..]. Qed.
Lemma dec_free bad n : (forall b, In b bad -> b < 45 \/ 45 < b < 48 \/ 57 < b) -> free bad (dec n).
Proof.
  intros H. unfold dec. assert (D : forall u, free bad (digits u)) by (intros u b Hb X; apply digits_range in Hb; apply H in X; lia).
  destruct (n <? 0); [|apply D]. apply free_cons. split; [intros X; apply H in X; lia|apply D].
Qed.
Ltac bads := intros ?b ?Hb; repeat (destruct Hb as [<-|Hb]; [lia|]); destruct Hb.
Ltac nofree := let b := fresh in let H := fresh in let X := fresh in intros b H X; vm_compute in H, X; lia.

(** * Lines *)
Lemma block_ok b : 0 <= i_bb b -> 0 <= i_clone b -> block (block_text b) = Some (i_bb b, i_clone b).
Proof.
  intros H1 H2. unfold block, block_text. destruct (Z.eqb_spec (i_clone b) 0) as [E|NE]; cbn [negb].
  - rewrite app_nil_r, split_free by (apply dec_free; bads). rewrite dec_decimal, number_decimal by assumption. rewrite E. reflexivity.
  - change (txt ".") with [46]. cbn [app]. rewrite split_app by (apply dec_free; bads). rewrite split_free by (apply dec_free; bads). rewrite !dec_decimal, !number_decimal by assumption. reflexivity.
Qed.
Lemma block_free bad b : (forall x, In x bad -> x < 45 \/ 57 < x) -> free bad (block_text b).
Proof.
  intros H. unfold block_text. apply free_app. split; [apply dec_free; intros x Hx; apply H in Hx; lia|]. destruct (negb _); [|intros x []].
  change (txt ".") with [46]. apply free_app. split; [|apply dec_free; intros x Hx; apply H in Hx; lia]. intros x Hx X. destruct Hx as [<-|[]]. apply H in X. lia.
Qed.
Lemma all_map {A B C} (f : B -> option C) (g : A -> B) (h : A -> C) l : (forall x, In x l -> f (g x) = Some (h x)) -> all f (map g l) = Some (map h l).
Proof. induction l as [|x l IH]; intros H; [reflexivity|]. cbn [map all]. rewrite (H x (or_introl eq_refl)), IH by (intros; apply H; right; assumption). reflexivity. Qed.
Lemma blocks_join E bs : bs <> [] -> blocks_text E true bs = e_cluster E ++ join [32] (map block_text bs).
Proof.
  assert (G : forall bs b, blocks_text E false bs = match bs with [] => [] | _ => 32 :: join [32] (map block_text bs) end /\ block_text b ++ blocks_text E false bs = join [32] (map block_text (b :: bs))).
  { induction bs0 as [|c bs0 IH]; intros b; [split; [reflexivity|apply app_nil_r]|]. destruct (IH c) as [_ A]. split.
    - cbn [blocks_text app]. f_equal. exact A.
    - cbn [blocks_text app]. rewrite A. reflexivity. }
  intros NE. destruct bs as [|b bs]; [congruence|]. cbn [blocks_text]. f_equal. apply G.
Qed.
Definition cluster_text (v : version) (c : wcluster) : text := blocks_text (GetProfileEncoding v) true (wc_blocks c).
Definition path_line (p : list bbid) : text := txt "p" ++ join (txt " ") (map (fun b => dec (i_bb b)) p).
Definition prof_line (n : wnode) : text :=
  txt "#cfg-prof " ++ dec (i_bb (wn_id n)) ++ txt ":" ++ dec (wn_freq n) ++
    flat_map (fun e => let '(b, s, w) := e in if negb b then [] else txt " " ++ dec s ++ txt ":" ++ dec w) (wn_outs n).
Definition head_lines (v : version) (g : wcfg) : list text :=
  match v with
  | V1 => match w_module g with Some m => [txt "m " ++ m] | None => [] end ++ [txt "f " ++ join (txt " ") (w_names g)]
  | V0 => [txt "!" ++ join (txt "/") (w_names g) ++ match w_module g with Some m => txt " M=" ++ m | None => [] end]
  end.
Definition score_lines (verbose : bool) (z : winfo) (g : wcfg) : list text :=
  if verbose then [wi_scores z; txt "#entry-freq " ++ dec (match w_nodes g with n :: _ => wn_freq n | [] => 0 end)] else [].
Definition function_lines (verbose : bool) (v : version) (z : winfo) (g : wcfg) : list text :=
  head_lines v g ++ map path_line (w_paths g) ++ score_lines verbose z g ++ map (cluster_text v) (wi_clusters z) ++ (if verbose then map prof_line (w_nodes g) else []).
Lemma function_text_lines verbose v cfgs z g : cfgs (wi_func z) = Some g -> (v = V0 -> w_paths g = []) -> function_text verbose v cfgs z = lines (function_lines verbose v z g).
Proof.
  intros HG HP. unfold function_text, function_lines. rewrite HG, !lines_app. repeat f_equal.
  - unfold head_text, head_lines. destruct v; cbn [GetProfileEncoding e_func e_sep e_module].
    + cbn [app lines flat_map]. rewrite app_nil_r, <- !app_assoc. destruct (w_module g); rewrite <- ?app_assoc; reflexivity.
    + destruct (w_module g); cbn [app lines flat_map]; rewrite ?app_nil_r, <- !app_assoc; reflexivity.
  - rewrite lines_map. unfold paths_text. destruct v; [rewrite HP by reflexivity; reflexivity|]. apply flat_map_ext. intros p. unfold path_line. cbn [GetProfileEncoding e_path]. rewrite <- !app_assoc. reflexivity.
  - unfold scores_text, score_lines. destruct verbose; [|reflexivity]. cbn [lines flat_map]. rewrite app_nil_r, <- !app_assoc. reflexivity.
  - rewrite lines_map. reflexivity.
  - destruct verbose; [|reflexivity]. unfold DumpCfgProfile. rewrite lines_map. apply flat_map_ext. intros n. unfold prof_line. rewrite <- !app_assoc. reflexivity.
Qed.

Section Step.
  Context (v : version).
  Definition step := match v with V0 => read_line0 | V1 => read_line1 end.
  Lemma comment_line s r : step s (35 :: r) = Some s.
  Proof. unfold step. destruct v; reflexivity. Qed.
  Lemma read_lines_app ls ks : forall s, read_lines step s (ls ++ ks) = match read_lines step s ls with Some s' => read_lines step s' ks | None => None end.
  Proof. induction ls as [|l ls IH]; intros s; [reflexivity|]. cbn [app read_lines]. destruct (step s l); auto. Qed.
  Lemma comments ls : (forall l, In l ls -> hd 0 l = 35) -> forall s, read_lines step s ls = Some s.
  Proof.
    induction ls as [|l ls IH]; intros H s; [reflexivity|]. cbn [read_lines]. pose proof (H l (or_introl eq_refl)) as X. destruct l as [|b l]; [discriminate|]. cbn in X. subst b. rewrite comment_line. apply IH. intros; apply H; right; assumption.
  Qed.
  Lemma to_last_app f es e : to_last f (es ++ [e]) = Some (es ++ [f e]).
  Proof. unfold to_last. rewrite rev_app_distr. cbn [rev app]. rewrite rev_involutive. reflexivity. Qed.
End Step.

Section Function.
  Context (verbose : bool) (v : version) (cfgs : Z -> option wcfg) (sec : text * list winfo) (T : texts_ok v cfgs sec).
  Context (z : winfo) (Hz : In z (snd sec)) (g : wcfg) (HG : cfgs (wi_func z) = Some g) (HP : v = V0 -> w_paths g = []) (HB : forall c, In c (wi_clusters z) -> wc_blocks c <> []).
  Lemma prof_free n : free [10] (prof_line n).
  Proof.
    unfold prof_line. repeat (apply free_app; split); try nofree; try (apply dec_free; bads).
    intros b Hb. apply in_flat_map in Hb as [[[k s] w] [_ Hb]]. revert b Hb. change (free [10] (if negb k then [] else txt " " ++ dec s ++ txt ":" ++ dec w)). destruct (negb k); [intros b []|].
    repeat (apply free_app; split); try nofree; apply dec_free; bads.
  Qed.
  Lemma cluster_free c : In c (wi_clusters z) -> free [10] (cluster_text v c).
  Proof.
    intros Hc. unfold cluster_text. rewrite blocks_join by (apply HB; exact Hc). apply free_app. split; [destruct v; nofree|]. apply free_join; [nofree|]. intros x Hx. apply in_map_iff in Hx as [b [<- _]]. apply block_free. bads.
  Qed.
  Lemma function_lines_free l : In l (function_lines verbose v z g) -> free [10] l.
  Proof.
    destruct (to_names _ _ _ T z g Hz HG) as [NN NF]. assert (NF1 : forall n, In n (w_names g) -> free [10] n) by (intros n Hn; apply (free_weaken [10; 32]); [intros x [<-|[]]; left; reflexivity|auto]).
    assert (MF : forall m, w_module g = Some m -> free [10] m) by (intros m Hm; apply (free_weaken [10; 32]); [intros x [<-|[]]; left; reflexivity|exact (to_module _ _ _ T z g m Hz HG Hm)]).
    unfold function_lines. rewrite !in_app_iff. intros [H|[H|[H|[H|H]]]].
    - unfold head_lines in H. destruct v.
      + destruct H as [<-|[]]. repeat (apply free_app; split); [nofree|apply free_join; [nofree|exact NF1]|]. destruct (w_module g) as [m|]; [|intros b []]. apply free_app. split; [nofree|apply MF; reflexivity].
      + apply in_app_iff in H as [H|[<-|[]]]; [destruct (w_module g) as [m|]; [|destruct H]; destruct H as [<-|[]]|]; (apply free_app; split; [nofree|]); [apply MF; reflexivity|apply free_join; [nofree|exact NF1]].
    - apply in_map_iff in H as [p [<- Hp]]. apply free_app. split; [nofree|]. apply free_join; [nofree|]. intros x Hx. apply in_map_iff in Hx as [b [<- _]]. apply dec_free. bads.
    - unfold score_lines in H. destruct verbose; [|destruct H]. destruct H as [<-|[<-|[]]]; [apply (to_scores _ _ _ T z Hz)|]. apply free_app. split; [nofree|apply dec_free; bads].
    - apply in_map_iff in H as [c [<- Hc]]. apply cluster_free. exact Hc.
    - destruct verbose; [|destruct H]. apply in_map_iff in H as [n [<- _]]. apply prof_free.
  Qed.
  Lemma read_cluster c es e m : In c (wi_clusters z) -> step v (es ++ [e], m) (cluster_text v c) = Some (es ++ [add_cluster (map (fun b => (i_bb b, i_clone b)) (wc_blocks c)) e], m).
  Proof.
    intros Hc. unfold cluster_text. rewrite blocks_join by (apply HB; exact Hc).
    assert (L : cluster_line (es ++ [e], m) (join [32] (map block_text (wc_blocks c))) = Some (es ++ [add_cluster (map (fun b => (i_bb b, i_clone b)) (wc_blocks c)) e], m)).
    { unfold cluster_line. rewrite split_join.
      - rewrite (all_map block block_text (fun b => (i_bb b, i_clone b))); [cbn [fst snd]; rewrite to_last_app; reflexivity|]. intros b Hb. apply block_ok; apply (to_blocks _ _ _ T z c b Hz Hc Hb).
      - intros X. apply map_eq_nil in X. exact (HB c Hc X).
      - intros x Hx. apply in_map_iff in Hx as [b [<- _]]. apply block_free. bads. }
    unfold step. destruct v; exact L.
  Qed.
  Lemma read_clusters cs : (forall c, In c cs -> In c (wi_clusters z)) -> forall es e m, read_lines (step v) (es ++ [e], m) (map (cluster_text v) cs) =
    Some (es ++ [FEntry (f_names e) (f_module e) (f_paths e) (f_clusters e ++ map (fun c => map (fun b => (i_bb b, i_clone b)) (wc_blocks c)) cs)], m).
  Proof.
    induction cs as [|c cs IH]; intros H es e m; cbn [map read_lines]; [rewrite app_nil_r; destruct e; reflexivity|].
    rewrite read_cluster by (apply H; left; reflexivity). rewrite IH by (intros; apply H; right; assumption). cbn [add_cluster f_names f_module f_paths f_clusters]. rewrite <- app_assoc. reflexivity.
  Qed.
  Lemma read_path p es e m : v = V1 -> In p (w_paths g) -> step v (es ++ [e], m) (path_line p) = Some (es ++ [add_path (map i_bb p) e], m).
  Proof.
    intros V Hp. unfold step. rewrite V. unfold path_line. change (txt "p") with [112]. change (txt " ") with [32]. cbn [app read_line1]. destruct (to_paths _ _ _ T z g p Hz HG Hp) as [NE NN].
    rewrite split_join; [|intros X; apply map_eq_nil in X; exact (NE X)|intros x Hx; apply in_map_iff in Hx as [b [<- _]]; apply dec_free; bads].
    rewrite (all_map number (fun b => dec (i_bb b)) i_bb); [cbn [fst snd]; rewrite to_last_app; reflexivity|]. intros b Hb. rewrite dec_decimal by auto. apply number_decimal. auto.
  Qed.
  Lemma read_paths ps : (v = V0 -> ps = []) -> (forall p, In p ps -> In p (w_paths g)) -> forall es e m, read_lines (step v) (es ++ [e], m) (map path_line ps) =
    Some (es ++ [FEntry (f_names e) (f_module e) (f_paths e ++ map (map i_bb) ps) (f_clusters e)], m).
  Proof.
    induction ps as [|p ps IH]; intros HV H es e m; cbn [map read_lines]; [rewrite app_nil_r; destruct e; reflexivity|].
    assert (V : v = V1) by (assert (D : v = V0 \/ v = V1) by (destruct v; auto); destruct D as [D|D]; [discriminate (HV D)|exact D]).
    rewrite read_path by (auto; apply H; left; reflexivity). rewrite IH; [|intros X; congruence|intros; apply H; right; assumption].
    cbn [add_path f_names f_module f_paths f_clusters]. rewrite <- app_assoc. reflexivity.
  Qed.
  Lemma read_head es : read_lines (step v) (es, None) (head_lines v g) = Some (es ++ [FEntry (w_names g) (w_module g) [] []], None).
  Proof.
    destruct (to_names _ _ _ T z g Hz HG) as [NN NF]. pose proof (fun m => to_module _ _ _ T z g m Hz HG) as MF.
    assert (F32 : forall n, free [10; 32] n -> free [32] n) by (intros n; apply free_weaken; intros x [<-|[]]; right; left; reflexivity).
    assert (D : v = V0 \/ v = V1) by (destruct v; auto). unfold step, head_lines. destruct D as [D|D]; rewrite D.
    - pose proof (fun n => to_names0 _ _ _ T D z g n Hz HG) as N0.
      assert (J32 : free [32] (join [47] (w_names g))) by (apply free_join; [nofree|]; intros n Hn; apply F32; auto).
      assert (J33 : free [33] (join [47] (w_names g))) by (apply free_join; [nofree|]; intros n Hn; apply (free_weaken [33; 47]); [intros x [<-|[]]; left; reflexivity|auto]).
      assert (SJ : split 47 (join [47] (w_names g)) = w_names g) by (apply split_join; [exact NN|]; intros n Hn; apply (free_weaken [33; 47]); [intros x [<-|[]]; right; left; reflexivity|auto]).
      change (txt "!") with [33]. change (txt "/") with [47]. change (txt " M=") with [32; 77; 61]. cbn [app read_lines].
      assert (R : forall r, match join [47] (w_names g) ++ r with 33 :: _ => False | _ => True end -> read_line0 (es, None) (33 :: join [47] (w_names g) ++ r) =
          match split 32 (join [47] (w_names g) ++ r) with
          | [ns] => Some (es ++ [FEntry (split 47 ns) None [] []], None) | [ns; 77 :: 61 :: m] => Some (es ++ [FEntry (split 47 ns) (Some m) [] []], None) | _ => None end).
      { intros r X. set (l := join [47] (w_names g) ++ r) in *. unfold read_line0. cbn [fst snd]. destruct l as [|b l]; [reflexivity|].
        destruct (Z.eqb_spec b 33) as [->|NE]; [destruct X|]. destruct b as [|b|b]; try reflexivity. repeat (destruct b as [b|b|]; try reflexivity); congruence. }
      assert (ND : forall r, (r = [] \/ hd 0 r = 32) -> match join [47] (w_names g) ++ r with 33 :: _ => False | _ => True end).
      { intros r Hr. destruct (join [47] (w_names g)) as [|b l] eqn:EJ; cbn [app].
        - destruct Hr as [-> |Hr]; [exact I|]. destruct r as [|b r]; [exact I|]. cbn in Hr. subst b. exact I.
        - assert (NE : b <> 33) by (intros X; apply (J33 b); [left; reflexivity|left; auto]). destruct b as [|b|b]; try exact I. repeat (destruct b as [b|b|]; try exact I). congruence. }
      destruct (w_module g) as [m|].
      + cbn [app]. rewrite R by (apply ND; right; reflexivity). rewrite split_app by exact J32. rewrite split_free; [rewrite SJ; reflexivity|].
        apply free_cons. split; [cbn; lia|]. apply free_cons. split; [cbn; lia|]. apply F32, MF. reflexivity.
      + rewrite R by (apply ND; left; reflexivity). rewrite app_nil_r, split_free by exact J32. rewrite SJ. reflexivity.
    - change (txt "m ") with [109; 32]. change (txt "f ") with [102; 32]. change (txt " ") with [32].
      assert (SJ : split 32 (join [32] (w_names g)) = w_names g) by (apply split_join; [exact NN|]; intros n Hn; apply F32; auto).
      destruct (w_module g) as [m|]; cbn [app read_lines read_line1 fst snd]; rewrite SJ; reflexivity.
  Qed.
  Lemma read_function es : read_lines (step v) (es, None) (function_lines verbose v z g) = Some (es ++ [entry_of cfgs z], None).
  Proof.
    unfold function_lines. rewrite read_lines_app, read_head. rewrite read_lines_app, (read_paths (w_paths g) HP (fun p H => H)). rewrite read_lines_app, comments.
    - rewrite read_lines_app, (read_clusters (wi_clusters z) (fun c H => H)). cbn [f_names f_module f_paths f_clusters app]. rewrite comments.
      + unfold entry_of. rewrite HG. reflexivity.
      + intros l Hl. destruct verbose; [|destruct Hl]. apply in_map_iff in Hl as [n [<- _]]. reflexivity.
    - intros l Hl. unfold score_lines in Hl. destruct verbose; [|destruct Hl]. destruct Hl as [<-|[<-|[]]]; [apply (to_scores _ _ _ T z Hz)|reflexivity].
  Qed.
End Function.

Section File.
  Context (verbose : bool) (v : version) (cfgs : Z -> option wcfg) (secs : list (text * list winfo)).
  Hypothesis (H : forall s, In s secs -> section_wf cfgs (snd s) /\ paths_ok v cfgs (snd s) /\ texts_ok v cfgs s).
  Definition info_lines (z : winfo) : list text := match cfgs (wi_func z) with Some g => function_lines verbose v z g | None => [] end.
  Definition section_lines (s : text * list winfo) : list text := (if verbose then [txt "#section " ++ fst s] else []) ++ flat_map info_lines (snd s).
  Lemma section_text s : In s secs -> (if verbose then txt "#section " ++ fst s ++ [nl] else []) ++ flat_map (function_text verbose v cfgs) (snd s) = lines (section_lines s).
  Proof.
    intros Hs. destruct (H s Hs) as [W [PO _]]. unfold section_lines. rewrite lines_app. f_equal.
    - destruct verbose; [|reflexivity]. cbn [lines flat_map]. rewrite app_nil_r, <- app_assoc. reflexivity.
    - assert (G : forall z, In z (snd s) -> function_text verbose v cfgs z = lines (info_lines z)).
      { intros z Hz. destruct (info_cfg v cfgs (snd s) W PO z Hz) as [g [HG [_ [_ HP]]]]. unfold info_lines. rewrite HG. apply function_text_lines; assumption. }
      clear - G. induction (snd s) as [|z zs IH]; [reflexivity|]. cbn [flat_map]. rewrite lines_app, IH by (intros; apply G; right; assumption). f_equal. apply G. left. reflexivity.
  Qed.
  Lemma section_free s l : In s secs -> In l (section_lines s) -> free [10] l.
  Proof.
    intros Hs Hl. destruct (H s Hs) as [W [PO T]]. unfold section_lines in Hl. apply in_app_iff in Hl as [Hl|Hl].
    - destruct verbose; [|destruct Hl]. destruct Hl as [<-|[]]. apply free_app. split; [nofree|apply (to_section _ _ _ T)].
    - apply in_flat_map in Hl as [z [Hz Hl]]. unfold info_lines in Hl. destruct (info_cfg v cfgs (snd s) W PO z Hz) as [g [HG [_ [HB HP]]]]. rewrite HG in Hl.
      eapply (function_lines_free verbose v cfgs s T z Hz g HG HP HB). exact Hl.
  Qed.
  Lemma read_section s es : In s secs -> read_lines (step v) (es, None) (section_lines s) = Some (es ++ map (entry_of cfgs) (snd s), None).
  Proof.
    intros Hs. destruct (H s Hs) as [W [PO T]]. unfold section_lines. rewrite read_lines_app, comments; [|intros l Hl; destruct verbose; [|destruct Hl]; destruct Hl as [<-|[]]; reflexivity].
    assert (G : forall z, In z (snd s) -> forall es, read_lines (step v) (es, None) (info_lines z) = Some (es ++ [entry_of cfgs z], None)).
    { intros z Hz es'. destruct (info_cfg v cfgs (snd s) W PO z Hz) as [g [HG [_ [HB HP]]]]. unfold info_lines. rewrite HG. eapply read_function; eassumption. }
    clear - G. revert es. induction (snd s) as [|z zs IH]; intros es; [cbn; rewrite app_nil_r; reflexivity|]. cbn [flat_map map]. rewrite read_lines_app, G by (left; reflexivity).
    rewrite IH by (intros; apply G; right; assumption). rewrite <- app_assoc. reflexivity.
  Qed.
  Lemma read_sections ss : incl ss secs -> forall es, read_lines (step v) (es, None) (flat_map section_lines ss) = Some (es ++ flat_map (fun s => map (entry_of cfgs) (snd s)) ss, None).
  Proof.
    induction ss as [|s ss IH]; intros I es; [cbn; rewrite app_nil_r; reflexivity|]. cbn [flat_map]. rewrite read_lines_app, read_section by (apply I; left; reflexivity).
    rewrite IH by (intros x Hx; apply I; right; exact Hx). rewrite <- app_assoc. reflexivity.
  Qed.
  Lemma not_v1 ls r : read_lines read_line0 ([], None) ls = Some r ->
    match ls with [118; 49] :: ls' => read_lines read_line1 ([], None) ls' | _ => read_lines read_line0 ([], None) ls end = Some r.
  Proof.
    intros R. destruct ls as [|l ls]; [exact R|]. destruct l as [|x l]; [exact R|]. destruct (Z.eqb_spec x 118) as [-> |NE]; [cbn [read_lines read_line0] in R; discriminate|].
    destruct x as [|x|x]; try exact R. repeat (destruct x as [x|x|]; try exact R); congruence.
  Qed.
  Theorem read_back cc ld : Write verbose v cfgs secs = Ok (cc, ld) -> read_file cc = Some (flat_map (fun s => map (entry_of cfgs) (snd s)) secs).
  Proof.
    unfold Write. intros R. destruct (sections_ok verbose v cfgs secs (fun s Hs => conj (proj1 (H s Hs)) (proj1 (proj2 (H s Hs)))) (match e_version (GetProfileEncoding v) with V0 => [] | _ => e_spec (GetProfileEncoding v) ++ [nl] end) []) as [sss [_ Q]].
    rewrite Q in R. assert (EC : forall (x y cc ld : text), Ok (x, y) = Ok (cc, ld) -> cc = x) by (intros x y c l X; congruence). apply EC in R. rewrite R. clear EC R.
    assert (ST : flat_map (fun s => (if verbose then txt "#section " ++ fst s ++ [nl] else []) ++ flat_map (function_text verbose v cfgs) (snd s)) secs = lines (flat_map section_lines secs)).
    { assert (G : forall s, In s secs -> (if verbose then txt "#section " ++ fst s ++ [nl] else []) ++ flat_map (function_text verbose v cfgs) (snd s) = lines (section_lines s)) by (intros s Hs; apply section_text; exact Hs).
      clear - G. induction secs as [|s l IH]; [reflexivity|]. cbn [flat_map]. rewrite lines_app, IH by (intros; apply G; right; assumption). f_equal. apply G. left. reflexivity. }
    rewrite ST. pose proof (read_sections secs (incl_refl _) []) as RS. cbn [app] in RS.
    assert (FR : forall l, In l (flat_map section_lines secs) -> free [10] l) by (intros l Hl; apply in_flat_map in Hl as [s [Hs Hl]]; eapply section_free; eassumption).
    unfold read_file. assert (D : v = V0 \/ v = V1) by (destruct v; auto). destruct D as [D|D]; rewrite D; cbn [GetProfileEncoding e_version e_spec].
    - cbn [app]. rewrite split_lines by exact FR. unfold step in RS. rewrite D in RS at 1. rewrite (not_v1 _ _ RS). reflexivity.
    - change (txt "v1") with [118; 49]. replace (([118; 49] ++ [10]) ++ lines (flat_map section_lines secs)) with (lines ([118; 49] :: flat_map section_lines secs)) by reflexivity.
      rewrite split_lines by (intros l [<-|Hl]; [nofree|auto]). unfold step in RS. rewrite D in RS at 1. rewrite RS. reflexivity.
  Qed.
End File.
