(** Proofs for C78: the text of a profile is the text of a sorted tree, and the
    tree can be read off the text. *)
From Verif Require Import Base SymbolModel AfdoModel ISort WriterModel WriterSpec WriterProofs WriterReadProofs WriterProps SymbolProofs AfdoProofs FlattenPureProofs DumpModel DumpSpec.
From Coq Require Import Ascii String.
From Coq Require Import List Permutation Sorted.
Open Scope string_scope.
Open Scope list_scope.
Open Scope Z_scope.

(** * Trees *)
Inductive tree := T (total : Z) (ps : list (Z * (Z * list (name * Z)))) (cs : list (callsite * tree)).
Definition t_total t := match t with T n _ _ => n end.
Definition pos_leb {A} (a b : Z * A) : bool := fst a <=? fst b.
Definition call_leb {A} (a b : callsite * A) : bool := callsite_leb (fst a) (fst b).
Fixpoint tree_of (s : symbol) : tree :=
  match s with
  | Sym _ t _ pos calls =>
      T t (map (fun p => (fst p, (p_count (snd p), isort target_leb (p_targets (snd p))))) (isort pos_leb pos))
        (isort call_leb (map (fun c => (fst c, tree_of (snd c))) calls))
  end.

Definition target_text (file : name) (t : name * Z) : text := [32; 32] ++ fst t ++ [58] ++ file ++ [58] ++ dec (snd t).
Definition pos_text (file : name) (indent : nat) (p : Z * (Z * list (name * Z))) : text :=
  PrintSourceLocation (fst p) (indent + 2) ++ dec (fst (snd p)) ++ concat (map (target_text file) (snd (snd p))) ++ [10].
Fixpoint body_text (file : name) (t : tree) (indent : nat) : text :=
  match t with
  | T _ ps cs =>
      concat (map (pos_text file indent) ps) ++
      concat (map (fun c => PrintSourceLocation (fst (fst c)) (indent + 2) ++ snd (fst c) ++ [58] ++ txt " total:" ++ dec (t_total (snd c)) ++ [10] ++ body_text [] (snd c) (indent + 2)) cs)
  end.

Lemma insert_map {A B} (f : A -> B) la lb x l : (forall a b, la a b = lb (f a) (f b)) -> map f (insert la x l) = insert lb (f x) (map f l).
Proof. intros H. induction l as [|y l IH]; cbn [insert map]; [reflexivity|]. rewrite <- H. destruct (la x y); cbn [map]; [reflexivity|rewrite IH; reflexivity]. Qed.
Lemma isort_map {A B} (f : A -> B) la lb l : (forall a b, la a b = lb (f a) (f b)) -> map f (isort la l) = isort lb (map f l).
Proof. intros H. induction l as [|x l IH]; cbn [isort fold_right map]; [reflexivity|]. fold (isort la l) (isort lb (map f l)). rewrite (insert_map f la lb) by exact H. rewrite IH. reflexivity. Qed.

Lemma body_tree file s : forall indent, DumpBody file s indent = body_text file (tree_of s) indent.
Proof.
  revert file. induction s as [h t ts pos calls IH] using symbol_ind'. intros file indent. cbn [DumpBody tree_of body_text]. f_equal.
  - rewrite map_map. reflexivity.
  - f_equal. rewrite <- (isort_map (fun c => (fst c, tree_of (snd c))) (fun a b => callsite_leb (fst a) (fst b)) call_leb) by reflexivity. rewrite map_map.
    rewrite <- (isort_map (fun c => (fst c, PrintSourceLocation (fst (fst c)) (indent + 2) ++ snd (fst c) ++ txt ":" ++ txt " total:" ++ dec (s_total (snd c)) ++ [10] ++ DumpBody [] (snd c) (indent + 2)))
      (fun a b => callsite_leb (fst a) (fst b)) (fun a b => callsite_leb (fst a) (fst b))) by reflexivity. rewrite map_map.
    apply map_ext_in. intros [key c] Hc. apply isort_In in Hc. cbn [fst snd]. rewrite <- (IH key c Hc). destruct c; reflexivity.
Qed.

(** * Reading *)
(** [a] holds no byte of [bad], and [c] is one. *)
Lemma span (P : Z -> bool) a a' c c' r r' : (forall b, In b a -> P b = false) -> (forall b, In b a' -> P b = false) -> P c = true -> P c' = true ->
  a ++ c :: r = a' ++ c' :: r' -> a = a' /\ c = c' /\ r = r'.
Proof.
  revert a'. induction a as [|x a IH]; intros [|x' a'] H H' C C' E; cbn [app] in E.
  - injection E as -> ->. auto.
  - injection E as E1 E2. pose proof (H' x' (or_introl eq_refl)). congruence.
  - injection E as E1 E2. pose proof (H x (or_introl eq_refl)). congruence.
  - injection E as <- E. destruct (IH a' (fun b Hb => H b (or_intror Hb)) (fun b Hb => H' b (or_intror Hb)) C C' E) as [-> [-> ->]]. auto.
Qed.
Definition digit (b : Z) : Prop := 48 <= b <= 57.
Lemma dec_digits n : 0 <= n -> (forall b, In b (dec n) -> digit b) /\ dec n <> [].
Proof.
  intros H. unfold dec. destruct (Z.ltb_spec n 0); [lia|]. split; [intros b; apply digits_range|].
  intros X. assert (U : N.to_uint (Z.to_N n) = Decimal.Nil) by (destruct (N.to_uint (Z.to_N n)); [reflexivity|discriminate..]).
  pose proof (DecimalN.Unsigned.of_to (Z.to_N n)) as O. rewrite U in O. cbn in O. rewrite <- O in U. discriminate.
Qed.
Lemma dec_same a b : 0 <= a -> 0 <= b -> dec a = dec b -> a = b.
Proof. intros A B E. rewrite !dec_decimal in E by assumption. apply decimal_inj in E; assumption. Qed.
(** A number and what is not a digit after it. *)
Definition nondigit (b : Z) : bool := negb ((48 <=? b) && (b <=? 57)).
Lemma read_dec a b c c' r r' : 0 <= a -> 0 <= b -> nondigit c = true -> nondigit c' = true -> dec a ++ c :: r = dec b ++ c' :: r' -> a = b /\ c = c' /\ r = r'.
Proof.
  intros A B C C' E. assert (D : forall n, 0 <= n -> forall x, In x (dec n) -> nondigit x = false).
  { intros n H x Hx. apply (proj1 (dec_digits n H)) in Hx. unfold digit, nondigit in *. destruct (Z.leb_spec 48 x), (Z.leb_spec x 57); (reflexivity || lia). }
  destruct (span nondigit _ _ _ _ _ _ (D a A) (D b B) C C' E) as [E1 [-> ->]]. split; [exact (dec_same _ _ A B E1)|auto].
Qed.

Lemma offset_parts o : offset_ok o -> 0 <= line_of o /\ 0 <= disc_of o /\ o = line_of o * 2 ^ 32 + disc_of o.
Proof.
  intros [A B]. unfold line_of, disc_of, u32, w32. change 65535 with (Z.ones 16). change 4294967295 with (Z.ones 32). rewrite !Z.land_ones, Z.shiftr_div_pow2 by lia.
  assert (Q : 0 <= o / 2 ^ 32 < 2 ^ 16) by (split; [apply Z.div_pos; lia|apply Z.div_lt_upper_bound; [lia|exact B]]).
  rewrite (Z.mod_small (o / 2 ^ 32)) by exact Q. rewrite (Z.mod_small (o / 2 ^ 32)) by lia. pose proof (Z.mod_pos_bound o (2 ^ 32) ltac:(lia)). pose proof (Z.div_mod o (2 ^ 32) ltac:(lia)). lia.
Qed.
(** A location. *)
Lemma read_location o o' i r r' : offset_ok o -> offset_ok o' -> PrintSourceLocation o i ++ r = PrintSourceLocation o' i ++ r' -> o = o' /\ r = r'.
Proof.
  intros O O' E. destruct (offset_parts o O) as [L [D Q]], (offset_parts o' O') as [L' [D' Q']].
  unfold PrintSourceLocation in E. rewrite <- !app_assoc in E. apply app_inv_head in E. change (txt ".") with [46] in E. change (txt ": ") with [58; 32] in E.
  destruct (Z.eqb_spec (disc_of o) 0) as [Z0|N0], (Z.eqb_spec (disc_of o') 0) as [Z0'|N0']; cbn [negb] in E; rewrite <- ?app_assoc in E; cbn [app] in E;
    apply read_dec in E as [E1 [E2 E3]]; try assumption; try reflexivity; try discriminate.
  - injection E3 as E3. split; [lia|exact E3].
  - apply read_dec in E3 as [E4 [_ E5]]; try assumption; try reflexivity. injection E5 as E5. split; [lia|exact E5].
Qed.

Lemma plain_no n : plain n -> forall b, In b n -> ((b =? 10) || (b =? 32) || (b =? 58)) = false.
Proof. intros H b Hb. destruct (H b Hb) as [A [B C]]. destruct (Z.eqb_spec b 10), (Z.eqb_spec b 32), (Z.eqb_spec b 58); (reflexivity || contradiction). Qed.
Lemma read_plain n n' c c' r r' : plain n -> plain n' -> (c = 10 \/ c = 32 \/ c = 58) -> (c' = 10 \/ c' = 32 \/ c' = 58) ->
  n ++ c :: r = n' ++ c' :: r' -> n = n' /\ c = c' /\ r = r'.
Proof.
  intros P P' C C' E. apply (span (fun b => (b =? 10) || (b =? 32) || (b =? 58))) in E; [exact E|apply plain_no, P|apply plain_no, P'|..].
  - destruct C as [-> | [-> | ->]]; reflexivity.
  - destruct C' as [-> | [-> | ->]]; reflexivity.
Qed.
Lemma dec_plain a : 0 <= a -> plain (dec a).
Proof. intros A b Hb. apply (proj1 (dec_digits a A)) in Hb. unfold digit in Hb. lia. Qed.
Lemma plain_nil : plain []. Proof. intros b []. Qed.

Definition targets_ok (l : list (name * Z)) : Prop := forall n k, In (n, k) l -> plain n /\ 0 <= k.
(** A count and the call targets up to the end of the line. *)
Lemma read_targets file l : forall l' c c' r r', plain file -> targets_ok l -> targets_ok l' -> 0 <= c -> 0 <= c' ->
  dec c ++ concat (map (target_text file) l) ++ 10 :: r = dec c' ++ concat (map (target_text file) l') ++ 10 :: r' -> c = c' /\ l = l' /\ r = r'.
Proof.
  induction l as [|[n k] l IH]; intros [|[n' k'] l'] c c' r r' F H H' C C' E; cbn [map concat app target_text] in E; unfold target_text in E; cbn [fst snd app] in E.
  - apply read_dec in E as [-> [_ ->]]; try assumption; try reflexivity. auto.
  - apply read_dec in E as [_ [E _]]; try assumption; try reflexivity. discriminate.
  - apply read_dec in E as [_ [E _]]; try assumption; try reflexivity. discriminate.
  - apply read_dec in E as [-> [_ E]]; try assumption; try reflexivity. injection E as E. rewrite <- !app_assoc in E. cbn [app] in E.
    destruct (H n k (or_introl eq_refl)) as [P K], (H' n' k' (or_introl eq_refl)) as [P' K'].
    apply read_plain in E as [-> [_ E]]; auto. rewrite <- !app_assoc in E. cbn [app] in E.
    apply read_plain in E as [_ [_ E]]; auto.
    apply IH in E as [-> [-> ->]]; auto; intros x y Hx; [apply H|apply H']; right; exact Hx.
Qed.

(** Fewer than [n] blanks, then the end or something else. *)
Definition shallow (n : nat) (r : text) : Prop := exists k tl, (k < n)%nat /\ r = repeat 32 k ++ tl /\ (tl = [] \/ exists b tl', tl = b :: tl' /\ b <> 32).
Lemma location_starts o i : offset_ok o -> exists b tl, PrintSourceLocation o i = repeat 32 i ++ b :: tl /\ b <> 32.
Proof.
  intros O. destruct (offset_parts o O) as [L _]. destruct (dec_digits (line_of o) L) as [D N]. destruct (dec (line_of o)) as [|b d] eqn:E; [congruence|].
  pose proof (D b (or_introl eq_refl)) as X. unfold digit in X. unfold PrintSourceLocation, Indentation. rewrite E.
  destruct (negb (disc_of o =? 0)); cbn [app]; eexists _, _; (split; [reflexivity|lia]).
Qed.
Lemma shallow_no o i r r' : offset_ok o -> shallow i r -> PrintSourceLocation o i ++ r' <> r.
Proof.
  intros O [k [tl [L [-> E]]]] X. destruct (location_starts o i O) as [b [tl' [EL NB]]]. rewrite EL in X. clear EL. rewrite <- app_assoc in X.
  replace i with (k + (i - k))%nat in X by lia. rewrite repeat_app, <- app_assoc in X. apply app_inv_head in X.
  destruct (i - k)%nat as [|m] eqn:EM; [lia|]. cbn [repeat app] in X. destruct E as [-> | [b' [t' [-> NE]]]]; [discriminate|]. injection X as X _. congruence.
Qed.
Lemma shallow_location o i r : offset_ok o -> shallow (i + 2) (PrintSourceLocation o i ++ r).
Proof.
  intros O. destruct (location_starts o i O) as [b [tl [-> NB]]]. exists i, (b :: tl ++ r). split; [lia|]. split; [rewrite <- app_assoc; reflexivity|]. right. eauto.
Qed.
Lemma shallow_up i j r : shallow i r -> (i <= j)%nat -> shallow j r.
Proof. intros [k [tl [A B]]] L. exists k, tl. split; [lia|exact B]. Qed.

Lemma tree_ind' (Q : tree -> Prop) : (forall n ps cs, (forall k t, In (k, t) cs -> Q t) -> Q (T n ps cs)) -> forall t, Q t.
Proof.
  intros H. fix IH 1. intros [n ps cs]. apply H. induction cs as [|[k' c'] cs IHc]; intros k t I; [destruct I|].
  destruct I as [E|I]; [|exact (IHc k t I)]. assert (X : c' = t) by congruence. rewrite <- X. apply IH.
Qed.
Inductive tree_ok : tree -> Prop :=
| TreeOk n ps cs : 0 <= n -> (forall o c tg, In (o, (c, tg)) ps -> offset_ok o /\ 0 <= c /\ targets_ok tg) ->
    (forall o m t, In ((o, m), t) cs -> offset_ok o /\ plain m /\ tree_ok t) -> tree_ok (T n ps cs).

Definition call_text (i : nat) (c : callsite * tree) : text :=
  PrintSourceLocation (fst (fst c)) (i + 2) ++ snd (fst c) ++ [58] ++ txt " total:" ++ dec (t_total (snd c)) ++ [10] ++ body_text [] (snd c) (i + 2).
Lemma body_eq file n ps cs i : body_text file (T n ps cs) i = concat (map (pos_text file i) ps) ++ concat (map (call_text i) cs).
Proof. reflexivity. Qed.

Lemma calls_shallow cs i r : (forall o m t, In ((o, m), t) cs -> offset_ok o) -> shallow (i + 2) r -> shallow (i + 4) (concat (map (call_text i) cs) ++ r).
Proof.
  intros H S. destruct cs as [|[[o m] t] cs]; cbn [map concat app]; [apply (shallow_up (i + 2)); [exact S|lia]|].
  unfold call_text at 1. cbn [fst]. rewrite <- !app_assoc. replace (i + 4)%nat with ((i + 2) + 2)%nat by lia. apply shallow_location. apply (H o m t). left. reflexivity.
Qed.

Lemma after_dec file c tg r : exists x y, dec c ++ concat (map (target_text file) tg) ++ 10 :: r = dec c ++ x :: y /\ (x = 10 \/ x = 32).
Proof. destruct tg as [|[n k] tg]; cbn [map concat app target_text]; eexists _, _; (split; [reflexivity|auto]). Qed.

(** A call is not a position. *)
Lemma call_not_pos file cs i r o c tg r' : (forall o m t, In ((o, m), t) cs -> offset_ok o /\ plain m) -> shallow (i + 2) r -> offset_ok o -> 0 <= c ->
  concat (map (call_text i) cs) ++ r <> pos_text file i (o, (c, tg)) ++ r'.
Proof.
  intros H S O C E. unfold pos_text in E. cbn [fst snd] in E. rewrite <- !app_assoc in E. destruct cs as [|[[o1 m] t] cs]; cbn [map concat app] in E.
  - symmetry in E. revert E. apply shallow_no; assumption.
  - unfold call_text at 1 in E. cbn [fst snd] in E. rewrite <- !app_assoc in E. destruct (H o1 m t (or_introl eq_refl)) as [O1 P].
    apply read_location in E as [_ E]; try assumption. destruct (after_dec file c tg r') as [x [y [E2 X]]]. change ([10] ++ r') with (10 :: r') in E. rewrite E2 in E. cbn [app] in E.
    apply read_plain in E as [_ [E _]]; [destruct X as [-> | ->]; discriminate|exact P|apply dec_plain, C|auto|destruct X as [-> | ->]; auto].
Qed.

Theorem read_body t : forall t' file i r r', tree_ok t -> tree_ok t' -> plain file -> shallow (i + 2) r -> shallow (i + 2) r' ->
  body_text file t i ++ r = body_text file t' i ++ r' -> t_total t = t_total t' -> t = t' /\ r = r'.
Proof.
  induction t as [n ps cs IH] using tree_ind'. intros [n' ps' cs'] file i r r' OK OK' F S S' E N. cbn [t_total] in N. subst n'.
  inversion OK as [n0 ps0 cs0 _ HP HC]; subst. inversion OK' as [n0 ps0 cs0 _ HP' HC']; subst. clear OK OK'. rewrite !body_eq, <- !app_assoc in E.
  assert (Q : ps = ps' /\ concat (map (call_text i) cs) ++ r = concat (map (call_text i) cs') ++ r').
  { clear IH. revert ps' HP' E. induction ps as [|[o [c tg]] ps IHp]; intros [|[o' [c' tg']] ps'] HP' E; cbn [map concat app] in E; rewrite <- ?app_assoc in E.
    - auto.
    - exfalso. destruct (HP' o' c' tg' (or_introl eq_refl)) as [O [C _]]. revert E. apply call_not_pos; auto. intros o m t Ht. destruct (HC o m t Ht) as [A [B _]]. auto.
    - exfalso. destruct (HP o c tg (or_introl eq_refl)) as [O [C _]]. symmetry in E. revert E. apply call_not_pos; auto. intros o1 m t Ht. destruct (HC' o1 m t Ht) as [A [B _]]. auto.
    - destruct (HP o c tg (or_introl eq_refl)) as [O [C G]], (HP' o' c' tg' (or_introl eq_refl)) as [O' [C' G']].
      unfold pos_text at 1 3 in E. cbn [fst snd] in E. rewrite <- !app_assoc in E. apply read_location in E as [-> E]; try assumption. cbn [app] in E.
      apply read_targets in E as [-> [-> E]]; try assumption.
      destruct (IHp (fun a b d H => HP a b d (or_intror H)) ps' (fun a b d H => HP' a b d (or_intror H)) E) as [-> R]. auto. }
  destruct Q as [-> Q]. clear E HP HP'. assert (R : cs = cs' /\ r = r').
  { revert cs' HC' Q. induction cs as [|[[o m] t] cs IHc]; intros [|[[o' m'] t'] cs'] HC' E; cbn [map concat app] in E; rewrite <- ?app_assoc in E.
    - auto.
    - exfalso. unfold call_text at 1 in E. cbn [fst] in E. rewrite <- !app_assoc in E. symmetry in E. revert E. apply shallow_no; [apply (HC' o' m' t'); left; reflexivity|exact S].
    - exfalso. unfold call_text at 1 in E. cbn [fst] in E. rewrite <- !app_assoc in E. revert E. apply shallow_no; [apply (HC o m t); left; reflexivity|exact S'].
    - destruct (HC o m t (or_introl eq_refl)) as [O [P K]], (HC' o' m' t' (or_introl eq_refl)) as [O' [P' K']].
      unfold call_text at 1 3 in E. cbn [fst snd] in E. rewrite <- !app_assoc in E. apply read_location in E as [-> E]; try assumption. cbn [app] in E.
      apply read_plain in E as [-> [_ E]]; auto. apply app_inv_head in E.
      assert (T0 : 0 <= t_total t) by (inversion K; assumption). assert (T0' : 0 <= t_total t') by (inversion K'; assumption).
      apply read_dec in E as [ET [_ E]]; try assumption; try reflexivity.
      destruct (IH (o', m') t (or_introl eq_refl) t' [] (i + 2)%nat _ _ K K' plain_nil
        ltac:(replace (i + 2 + 2)%nat with (i + 4)%nat by lia; apply (calls_shallow cs i r); [intros a b d Hd; apply (HC a b d); right; exact Hd|exact S])
        ltac:(replace (i + 2 + 2)%nat with (i + 4)%nat by lia; apply (calls_shallow cs' i r'); [intros a b d Hd; apply (HC' a b d); right; exact Hd|exact S']) E ET) as [-> E2].
      destruct (IHc (fun a b H => IH a b (or_intror H)) (fun a b d H => HC a b d (or_intror H)) cs' (fun a b d H => HC' a b d (or_intror H)) E2) as [-> ->]. auto. }
  destruct R as [-> ->]. auto.
Qed.
