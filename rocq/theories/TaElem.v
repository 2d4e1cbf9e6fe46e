(** * TaElem: element-wise functions, shifts and differences (any float arithmetic). *)
From Verif Require Import Base Num Order Ta TaTools.
Set Implicit Arguments.

Section Elem.
Context {N : Num}.
Notation fl := (list F).

Lemma map1_ok f (xs : fl) : map1 f xs = Ok (map f xs).
Proof.
  unfold map1. rewrite make_len; cbn [bind].
  rewrite fill_loop0 with (f := fun i => f (nth i xs fzero)).
  - f_equal. unfold tab. rewrite <- map_map with (f := fun i => nth i xs fzero) (g := f).
    f_equal. exact (eq_sym (tab_of_list xs fzero)).
  - intros i Hi. rewrite (@get_nat _ xs i fzero) by lia. cbn [bind].
    apply partial_set; auto.
Qed.

(** Position-by-position combination of two slices. *)
Definition zipWith (f : F -> F -> F) (xs ys : fl) : fl :=
  map (fun p => f (fst p) (snd p)) (combine xs ys).

Lemma zipWith_length f xs ys : (length xs <= length ys)%nat -> length (zipWith f xs ys) = length xs.
Proof. intros H; unfold zipWith. rewrite map_length, combine_length; lia. Qed.

Lemma zipWith_nth f xs ys k d : (k < length xs)%nat -> (length xs <= length ys)%nat ->
  nth k (zipWith f xs ys) d = f (nth k xs d) (nth k ys d).
Proof.
  unfold zipWith. revert ys k; induction xs as [|x xs IH]; intros ys k Hk Hl; cbn in *; [lia|].
  destruct ys as [|y ys]; cbn in *; [lia|]. destruct k as [|k]; [reflexivity|].
  apply IH; lia.
Qed.

Lemma zipWith_tab f xs ys d : (length xs <= length ys)%nat ->
  zipWith f xs ys = tab (length xs) (fun k => f (nth k xs d) (nth k ys d)).
Proof.
  intros H. rewrite (tab_of_list (zipWith f xs ys) d), zipWith_length by exact H.
  apply tab_ext. intros k Hk. now apply zipWith_nth.
Qed.

Lemma map2_ok f (xs ys : fl) : (length xs <= length ys)%nat -> map2 f xs ys = Ok (zipWith f xs ys).
Proof.
  intros Hl. unfold map2. rewrite make_len; cbn [bind].
  rewrite fill_loop0 with (f := fun i => f (nth i xs fzero) (nth i ys fzero)).
  - now rewrite (@zipWith_tab f xs ys fzero Hl).
  - intros i Hi. rewrite (@get_nat _ xs i fzero), (@get_nat _ ys i fzero) by lia. cbn [bind].
    apply partial_set; auto.
Qed.

Lemma map2_panic f (xs ys : fl) : (length ys < length xs)%nat -> map2 f xs ys = Panic.
Proof.
  intros Hl. unfold map2. rewrite make_len; cbn [bind].
  apply for_panic_at with (mid := len ys) (I := fun _ r => length r = length xs).
  - unfold len; lia.
  - apply repeat_length.
  - intros i r Hi Hr. unfold len in *.
    rewrite (@get_nth _ xs i fzero), (@get_nth _ ys i fzero) by (unfold len; lia). cbn [bind].
    rewrite set_ok by (unfold len; lia). eexists; split; [reflexivity|]. now rewrite upd_length.
  - intros r Hr. destruct (get xs (len ys)); cbn [bind]; [|reflexivity].
    rewrite get_out by (right; lia). reflexivity.
Qed.

Lemma map2_ok_iff f (xs ys : fl) r : map2 f xs ys = Ok r <-> (length xs <= length ys)%nat /\ r = zipWith f xs ys.
Proof.
  destruct (Nat.le_gt_cases (length xs) (length ys)) as [H|H].
  - rewrite map2_ok by exact H. split; [intros E; injection E as <-; auto|intros [_ ->]; reflexivity].
  - rewrite map2_panic by exact H. split; [discriminate|lia].
Qed.

Lemma MultiplyBy_ok xs m : MultiplyBy xs m = Ok (map (fun v => v *~ m) xs).
Proof. apply map1_ok. Qed.

Lemma Subtract_ok xs ys : (length xs <= length ys)%nat ->
  Subtract xs ys = Ok (zipWith (fun a b => a +~ b *~ ofZ (-1)) xs ys).
Proof.
  intros H. unfold Subtract, Add. rewrite MultiplyBy_ok; cbn [bind].
  rewrite map2_ok by (rewrite map_length; exact H).
  f_equal. unfold zipWith.
  clear H. revert ys. induction xs as [|x xs IH]; intros [|y ys]; cbn; auto. f_equal. apply IH.
Qed.

Lemma Subtract_panic xs ys : (length ys < length xs)%nat -> Subtract xs ys = Panic.
Proof.
  intros H. unfold Subtract, Add. rewrite MultiplyBy_ok; cbn [bind].
  apply map2_panic. rewrite map_length; exact H.
Qed.

(** ** Shifts *)
Definition shifted (p : nat) (fill : F) (xs : fl) (i : nat) : F :=
  if (i <? p)%nat then fill else nth (i - p) xs fzero.

Lemma Shift_ok p fill xs : 0 <= p ->
  ShiftRightAndFillBy p fill xs = Ok (tab (length xs) (shifted (Z.to_nat p) fill xs)).
Proof.
  intros Hp. unfold ShiftRightAndFillBy. rewrite make_len; cbn [bind].
  apply fill_loop0. intros i Hi.
  destruct (Z.ltb_spec (Z.of_nat i) p) as [H|H].
  - apply partial_set; auto. unfold shifted. destruct (Nat.ltb_spec i (Z.to_nat p)); [reflexivity|lia].
  - replace (Z.of_nat i - p) with (Z.of_nat (i - Z.to_nat p)) by lia.
    rewrite (@get_nat _ xs _ fzero) by lia. cbn [bind]. apply partial_set; auto.
    unfold shifted. destruct (Nat.ltb_spec i (Z.to_nat p)); [lia|reflexivity].
Qed.

Lemma Shift_neg p fill xs : p < 0 -> xs <> [] -> ShiftRightAndFillBy p fill xs = Panic.
Proof.
  intros Hp Hx. unfold ShiftRightAndFillBy. rewrite make_len; cbn [bind].
  destruct (for_ 0 (len xs) _ _) as [r|] eqn:E; [exfalso|reflexivity].
  assert (Hn : 0 < len xs) by (destruct xs; [congruence|rewrite len_cons; pose proof (len_nonneg xs); lia]).
  rewrite (@for_split _ 0 (len xs - 1) (len xs)) in E by lia.
  apply bind_ok in E as (s & _ & E). rewrite for_step in E by lia.
  apply bind_ok in E as (s' & E & _).
  destruct (Z.ltb_spec (len xs - 1) p); [lia|]. rewrite get_out in E by (right; lia). discriminate.
Qed.

Lemma Shift_nil p fill : ShiftRightAndFillBy p fill [] = Ok [].
Proof. reflexivity. Qed.

Lemma Diff_ok xs b : 0 <= b ->
  Diff xs b = Ok (tab (length xs) (fun i => nth i xs fzero +~ shifted (Z.to_nat b) (ofZ 0) xs i *~ ofZ (-1))).
Proof.
  intros Hb. unfold Diff, ShiftRight. rewrite Shift_ok by exact Hb. cbn [bind].
  rewrite Subtract_ok by (rewrite tab_length; lia). f_equal.
  rewrite zipWith_tab with (d := fzero) by (rewrite tab_length; lia).
  apply tab_ext. intros k Hk. now rewrite tab_nth.
Qed.

Lemma PercentDiff_ok xs b : 0 <= b ->
  PercentDiff xs b = Ok (tab (length xs) (fun i =>
     if (i <? Z.to_nat b)%nat then fzero
     else (nth i xs fzero -~ nth (i - Z.to_nat b) xs fzero) /~ nth (i - Z.to_nat b) xs fzero)).
Proof.
  intros Hb. unfold PercentDiff. rewrite make_len; cbn [bind].
  destruct (Z.le_gt_cases b (len xs)) as [Hl|Hl].
  - replace b with (Z.of_nat (Z.to_nat b)) at 1 by lia. unfold len in *.
    apply fill_loop; [lia| |].
    + intros k Hk. destruct (Nat.ltb_spec k (Z.to_nat b)); [reflexivity|lia].
    + intros i Hi. rewrite (@get_nat _ xs i fzero) by lia. cbn [bind].
      replace (Z.of_nat i - b) with (Z.of_nat (i - Z.to_nat b)) by lia.
      rewrite (@get_nat _ xs _ fzero) by lia. cbn [bind]. apply partial_set; [lia|].
      destruct (Nat.ltb_spec i (Z.to_nat b)); [lia|reflexivity].
  - rewrite for_empty by lia. unfold len in Hl. f_equal.
    rewrite <- (partial_full fzero). apply partial_skips; [lia|].
    intros k Hk. destruct (Nat.ltb_spec k (Z.to_nat b)); [reflexivity|lia].
Qed.

Lemma PercentDiff_neg xs b : b < 0 -> PercentDiff xs b = Panic.
Proof.
  intros Hb. unfold PercentDiff. rewrite make_len; cbn [bind].
  rewrite for_step by (pose proof (len_nonneg xs); lia).
  rewrite get_out by (left; lia). reflexivity.
Qed.

(** Nzs *)
Lemma Nzs_ok xs rep : Nzs xs rep = Ok (map (fun v => Nz v rep) xs).
Proof.
  unfold Nzs.
  assert (H : forall n, (n <= length xs)%nat ->
    for_ 0 (Z.of_nat n) (fun i r => v <- get r i ;; set r i (Nz v rep)) xs =
    Ok (map (fun v => Nz v rep) (firstn n xs) ++ skipn n xs)).
  { intros n Hn. change 0 with (Z.of_nat 0).
    apply for_nat with (st := fun n => map (fun v => Nz v rep) (firstn n xs) ++ skipn n xs); [lia|reflexivity|].
    intros i Hi.
    pose proof (@firstn_S_nth _ xs i fzero ltac:(lia)) as Ef.
    pose proof (@skipn_S_nth _ xs i fzero ltac:(lia)) as Es.
    rewrite Es.
    rewrite get_nat with (d := fzero) by (rewrite app_length, map_length, firstn_length; cbn [length]; rewrite skipn_length; lia).
    rewrite app_nth2 by (rewrite map_length, firstn_length; lia).
    rewrite map_length, firstn_length. replace (i - Nat.min i (length xs))%nat with 0%nat by lia. cbn [nth bind].
    rewrite set_ok by (rewrite len_app, len_map, len_cons; unfold len; rewrite firstn_length, skipn_length; lia).
    rewrite Nat2Z.id. rewrite upd_app_r by (rewrite map_length, firstn_length; lia).
    rewrite map_length, firstn_length. replace (i - Nat.min i (length xs))%nat with 0%nat by lia. cbn [upd].
    rewrite Ef, map_app, <- app_assoc. reflexivity. }
  unfold len. rewrite H by lia. rewrite firstn_all, skipn_all, app_nil_r. reflexivity.
Qed.

(** ** Cross detection *)
Lemma CrossOver_spec (xs : fl) s : (2 <= length xs)%nat ->
  CrossOver xs s = Ok ((s <~ nth (length xs - 1) xs fzero) && (nth (length xs - 2) xs fzero <~ s)).
Proof.
  intros H. unfold CrossOver, len.
  replace (Z.of_nat (length xs) - 1) with (Z.of_nat (length xs - 1)) by lia.
  replace (Z.of_nat (length xs) - 2) with (Z.of_nat (length xs - 2)) by lia.
  rewrite !get_nat with (d := fzero) by lia. cbn [bind].
  destruct (s <~ _); reflexivity.
Qed.
Lemma CrossUnder_spec (xs : fl) s : (2 <= length xs)%nat ->
  CrossUnder xs s = Ok ((nth (length xs - 1) xs fzero <~ s) && (s <~ nth (length xs - 2) xs fzero)).
Proof.
  intros H. unfold CrossUnder, len.
  replace (Z.of_nat (length xs) - 1) with (Z.of_nat (length xs - 1)) by lia.
  replace (Z.of_nat (length xs) - 2) with (Z.of_nat (length xs - 2)) by lia.
  rewrite !get_nat with (d := fzero) by lia. cbn [bind].
  destruct (_ <~ s); reflexivity.
Qed.
Lemma Cross_empty s : CrossOver [] s = Panic /\ CrossUnder [] s = Panic.
Proof. split; reflexivity. Qed.
Lemma Cross_one x s :
  CrossOver [x] s = (if s <~ x then Panic else Ok false) /\
  CrossUnder [x] s = (if x <~ s then Panic else Ok false).
Proof.
  unfold CrossOver, CrossUnder. cbn [len length Z.of_nat Pos.of_succ_nat Z.sub Z.add Z.opp Z.pos_sub Pos.pred_double get Z.ltb Z.compare Z.to_nat nth_error bind].
  split; reflexivity.
Qed.
End Elem.
