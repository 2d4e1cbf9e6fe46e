(** * TaDev: MA, Dev, MeanDeviation, CCI, AiCoinCCI. *)
From Verif Require Import Base Num XReal Order Ta TaTools TaElem SpecTa RSum TaAvg TaStat.
Set Implicit Arguments.

Lemma scan_range {A S} (g : S -> A -> S) (xs : list A) a b s0 :
  (a <= b)%nat -> (b <= length xs)%nat ->
  for_ (Z.of_nat a) (Z.of_nat b) (fun j s => v <- get xs j ;; Ok (g s v)) s0 =
  Ok (fold_left g (skipn a (firstn b xs)) s0).
Proof.
  intros Hab Hb. destruct xs as [|x0 xs'] eqn:Exs.
  { cbn in Hb. replace a with 0%nat by lia. replace b with 0%nat by lia. reflexivity. }
  rewrite <- Exs in *. clear Exs.
  rewrite (@for_nat _ (fun i => fold_left g (skipn a (firstn i xs)) s0) a b).
  - reflexivity.
  - exact Hab.
  - rewrite skipn_all2 by (rewrite firstn_length; lia). reflexivity.
  - intros i Hi. rewrite (@get_nat _ xs i x0) by lia. cbn [bind].
    rewrite (@firstn_S_nth _ xs i x0) by lia.
    rewrite skipn_app, fold_left_app. rewrite firstn_length.
    replace (a - Nat.min i (length xs))%nat with 0%nat by lia. reflexivity.
Qed.

Section Gen.
Context {N : Num}.
Notation fl := (list F).

Lemma sum_window (xs : fl) i p : (i < length xs)%nat -> (p <= S i)%nat ->
  sum_range xs (Z.of_nat i - Z.of_nat p + 1) (Z.of_nat i + 1) = Ok (fold_left fadd (window xs i p) fzero).
Proof.
  intros Hi Hp. unfold sum_range.
  replace (Z.of_nat i - Z.of_nat p + 1) with (Z.of_nat (S i - p)) by lia.
  replace (Z.of_nat i + 1) with (Z.of_nat (S i)) by lia.
  rewrite scan_range by lia. reflexivity.
Qed.

Lemma devs_window (xs : fl) i p (m : F) : (i < length xs)%nat -> (p <= S i)%nat ->
  for_ (Z.of_nat i - Z.of_nat p + 1) (Z.of_nat i + 1) (fun j s => v <- get xs j ;; Ok (s +~ fabs (v -~ m))) fzero
  = Ok (fold_left (fun s v => s +~ fabs (v -~ m)) (window xs i p) fzero).
Proof.
  intros Hi Hp.
  replace (Z.of_nat i - Z.of_nat p + 1) with (Z.of_nat (S i - p)) by lia.
  replace (Z.of_nat i + 1) with (Z.of_nat (S i)) by lia.
  rewrite (scan_range (fun s v => s +~ fabs (v -~ m))) by lia. reflexivity.
Qed.

Definition fmean (w : fl) (p : nat) : F := fold_left fadd w fzero /~ ofZ (Z.of_nat p).
Definition fmad (w : fl) (p : nat) : F :=
  fold_left (fun s v => s +~ fabs (v -~ fmean w p)) w fzero /~ ofZ (Z.of_nat p).

(** value [f] of full windows, zero before *)
Definition warm (p : nat) (f : nat -> F) (i : nat) : F := if (S i <? p)%nat then fzero else f i.

Lemma MA_gen (p : nat) xs : (1 <= p)%nat ->
  MA xs (Z.of_nat p) = Ok (tab (length xs) (warm p (fun i => fmean (window xs i p) p))).
Proof.
  intros Hp. unfold MA. rewrite make_len; cbn [bind].
  destruct (Z.leb_spec (Z.of_nat p) 0); [lia|]. cbn [orb].
  destruct (Z.ltb_spec (len xs) (Z.of_nat p)) as [Hl|Hl]; unfold len in Hl.
  - f_equal. rewrite <- (partial_full fzero). apply partial_skips; [lia|].
    intros k Hk. unfold warm. destruct (Nat.ltb_spec (S k) p); [reflexivity|lia].
  - replace (Z.of_nat p - 1) with (Z.of_nat (p - 1)) by lia. unfold len.
    apply fill_loop; [lia| |].
    + intros k Hk. unfold warm. destruct (Nat.ltb_spec (S k) p); [reflexivity|lia].
    + intros i Hi. rewrite sum_window by lia. cbn [bind]. apply partial_set; [lia|].
      unfold warm. destruct (Nat.ltb_spec (S i) p); [lia|reflexivity].
Qed.

Lemma MA_nonpos p xs : p <= 0 -> MA xs p = Ok (repeat fzero (length xs)).
Proof.
  intros Hp. unfold MA. rewrite make_len; cbn [bind]. destruct (Z.leb_spec p 0); [reflexivity|lia].
Qed.

Lemma Dev_gen (p : nat) xs : (1 <= p)%nat ->
  Dev xs (Z.of_nat p) = Ok (tab (length xs) (warm p (fun i => fmad (window xs i p) p))).
Proof.
  intros Hp. unfold Dev. rewrite make_len; cbn [bind].
  destruct (Z.leb_spec (Z.of_nat p) 0); [lia|]. cbn [orb].
  destruct (Z.ltb_spec (len xs) (Z.of_nat p)) as [Hl|Hl]; unfold len in Hl.
  - f_equal. rewrite <- (partial_full fzero). apply partial_skips; [lia|].
    intros k Hk. unfold warm. destruct (Nat.ltb_spec (S k) p); [reflexivity|lia].
  - replace (Z.of_nat p - 1) with (Z.of_nat (p - 1)) by lia. unfold len.
    apply fill_loop; [lia| |].
    + intros k Hk. unfold warm. destruct (Nat.ltb_spec (S k) p); [reflexivity|lia].
    + intros i Hi. rewrite sum_window by lia. cbn [bind].
      rewrite devs_window by lia. cbn [bind]. apply partial_set; [lia|].
      unfold warm. destruct (Nat.ltb_spec (S i) p); [lia|reflexivity].
Qed.

Lemma Dev_nonpos p xs : p <= 0 -> Dev xs p = Ok (repeat fzero (length xs)).
Proof.
  intros Hp. unfold Dev. rewrite make_len; cbn [bind]. destruct (Z.leb_spec p 0); [reflexivity|lia].
Qed.

Definition md_at (xs ma : fl) (p : nat) (i : nat) : F :=
  fold_left (fun s v => s +~ fabs (v -~ nth i ma fzero)) (window xs i p) fzero /~ ofZ (Z.of_nat p).

Lemma MeanDeviation_gen (p : nat) xs ma : (1 <= p)%nat -> (length xs <= length ma)%nat ->
  MeanDeviation xs (Z.of_nat p) ma = Ok (tab (length xs) (warm p (md_at xs ma p))).
Proof.
  intros Hp Hm. unfold MeanDeviation. rewrite make_len; cbn [bind].
  destruct (Nat.le_gt_cases (p - 1) (length xs)) as [Hl|Hl].
  - replace (Z.of_nat p - 1) with (Z.of_nat (p - 1)) by lia. unfold len.
    apply fill_loop; [lia| |].
    + intros k Hk. unfold warm. destruct (Nat.ltb_spec (S k) p); [reflexivity|lia].
    + intros i Hi.
      rewrite for_ext with (b2 := fun j s => v <- get xs j ;; Ok (s +~ fabs (v -~ nth i ma fzero))).
      2:{ intros j s Hj. rewrite (@get_nat _ ma i fzero) by lia. reflexivity. }
      rewrite devs_window by lia. cbn [bind]. apply partial_set; [lia|].
      unfold warm. destruct (Nat.ltb_spec (S i) p); [lia|reflexivity].
  - rewrite for_empty by (unfold len; lia). f_equal. rewrite <- (partial_full fzero). apply partial_skips; [lia|].
    intros k Hk. unfold warm. destruct (Nat.ltb_spec (S k) p); [reflexivity|lia].
Qed.

Lemma CCI_gen (p q : nat) xs : (1 <= p)%nat ->
  CCI xs (Z.of_nat p) (Z.of_nat q) =
  Ok (tab (length xs) (warm p (fun i =>
        (nth i xs fzero -~ sma_out q xs i) /~
        (lit 15 1000 *~ md_at xs (tab (length xs) (sma_out q xs)) p i)))).
Proof.
  intros Hp. unfold CCI. rewrite make_len; cbn [bind]. rewrite Sma_gen; cbn [bind].
  rewrite MeanDeviation_gen by (rewrite ?tab_length; lia). cbn [bind].
  destruct (Nat.le_gt_cases (p - 1) (length xs)) as [Hl|Hl].
  - replace (Z.of_nat p - 1) with (Z.of_nat (p - 1)) by lia. unfold len.
    apply fill_loop; [lia| |].
    + intros k Hk. unfold warm. destruct (Nat.ltb_spec (S k) p); [reflexivity|lia].
    + intros i Hi. rewrite (@get_nat _ xs i fzero) by lia.
      rewrite !get_nat with (d := fzero) by (rewrite tab_length; lia). cbn [bind].
      rewrite !tab_nth by lia. apply partial_set; [lia|].
      unfold warm. destruct (Nat.ltb_spec (S i) p); [lia|reflexivity].
  - rewrite for_empty by (unfold len; lia). f_equal. rewrite <- (partial_full fzero). apply partial_skips; [lia|].
    intros k Hk. unfold warm. destruct (Nat.ltb_spec (S k) p); [reflexivity|lia].
Qed.

Lemma CCI_panic p q xs : p <= 0 -> CCI xs p q = Panic.
Proof.
  intros Hp. unfold CCI. rewrite make_len; cbn [bind]. pose proof (len_nonneg xs).
  destruct (Sma q xs) as [ma|]; cbn [bind]; [|reflexivity].
  unfold MeanDeviation. rewrite make_len; cbn [bind].
  rewrite for_first_panic; [reflexivity|lia|].
  rewrite for_empty by lia. cbn [bind]. apply set_out. left; lia.
Qed.

Definition aicci_at (c m d : F) : F :=
  if d ==~ fzero then fzero else (c -~ m) /~ (lit 15 1000 *~ d).

Lemma AiCoinCCI_gen xs p factor ma md : MA xs p = Ok ma -> Dev xs p = Ok md ->
  length ma = length xs -> length md = length xs ->
  AiCoinCCI xs p factor =
  Ok (tab (length xs) (fun i => aicci_at (nth i xs fzero) (nth i ma fzero) (nth i md fzero))).
Proof.
  intros E1 E2 L1 L2. unfold AiCoinCCI. rewrite E1; cbn [bind]. rewrite E2; cbn [bind].
  rewrite make_len; cbn [bind]. apply fill_loop0. intros i Hi.
  rewrite (@get_nat _ md i fzero) by lia. cbn [bind]. unfold aicci_at.
  destruct (nth i md fzero ==~ fzero) eqn:E.
  - apply partial_set; auto. now rewrite E.
  - rewrite (@get_nat _ xs i fzero), (@get_nat _ ma i fzero) by lia. cbn [bind].
    apply partial_set; auto. now rewrite E.
Qed.

Lemma MA_total xs p : exists r, MA xs p = Ok r /\ length r = length xs.
Proof.
  destruct (Z.le_gt_cases p 0) as [H|H].
  - rewrite MA_nonpos by exact H. eexists; split; [reflexivity|apply repeat_length].
  - replace p with (Z.of_nat (Z.to_nat p)) by lia. rewrite MA_gen by lia. eexists; split; [reflexivity|apply tab_length].
Qed.
Lemma Dev_total xs p : exists r, Dev xs p = Ok r /\ length r = length xs.
Proof.
  destruct (Z.le_gt_cases p 0) as [H|H].
  - rewrite Dev_nonpos by exact H. eexists; split; [reflexivity|apply repeat_length].
  - replace p with (Z.of_nat (Z.to_nat p)) by lia. rewrite Dev_gen by lia. eexists; split; [reflexivity|apply tab_length].
Qed.
End Gen.

(** ** Exact arithmetic *)
Local Open Scope R_scope.

Lemma fins_window xs i p : window (fins xs) i p = fins (window xs i p).
Proof. unfold window, fins. now rewrite firstn_map, skipn_map. Qed.

Lemma fmean_exact w p : (1 <= p)%nat -> length w = p -> fmean (N := XR) (fins w) p = Fin (mean w).
Proof.
  intros Hp Hw. unfold fmean. rewrite xr_zero, fold_fadd_fins, xr_ofZ, IZR_INR.
  rewrite xr_div by (apply INR_nz; lia). unfold mean. rewrite Hw. f_equal. f_equal. lra.
Qed.

Lemma fold_abs_fins m l a :
  fold_left (fun (s v : @F XR) => s +~ fabs (v -~ (Fin m : @F XR))) (fins l) (Fin a) =
  Fin (a + Rsum (map (fun x => Rabs (x - m)) l)).
Proof.
  revert a; induction l as [|x l IH]; intros a; cbn [fins map fold_left].
  - rewrite Rsum_nil. f_equal; lra.
  - xr. cbn [fabs XR xabs]. xr. fold (fins l). rewrite IH, Rsum_cons. f_equal; lra.
Qed.

Lemma fmad_exact w p : (1 <= p)%nat -> length w = p -> fmad (N := XR) (fins w) p = Fin (mad w).
Proof.
  intros Hp Hw. unfold fmad. rewrite fmean_exact by auto.
  rewrite xr_zero, fold_abs_fins, xr_ofZ, IZR_INR.
  rewrite xr_div by (apply INR_nz; lia). unfold mad, mean at 2. rewrite map_length, Hw. f_equal. f_equal. lra.
Qed.

Lemma MA_exact (p : nat) xs : (1 <= p)%nat ->
  MA (N := XR) (fins xs) (Z.of_nat p) =
  Ok (tab (length xs) (fun i => if (S i <? p)%nat then Fin 0 else Fin (mean (window xs i p)))).
Proof.
  intros Hp. rewrite MA_gen, fins_length by exact Hp. f_equal. apply tab_ext. intros k Hk.
  unfold warm. destruct (Nat.ltb_spec (S k) p); [reflexivity|].
  rewrite fins_window. apply fmean_exact; [exact Hp|]. rewrite window_length by lia. lia.
Qed.

Lemma Dev_exact (p : nat) xs : (1 <= p)%nat ->
  Dev (N := XR) (fins xs) (Z.of_nat p) =
  Ok (tab (length xs) (fun i => if (S i <? p)%nat then Fin 0 else Fin (mad (window xs i p)))).
Proof.
  intros Hp. rewrite Dev_gen, fins_length by exact Hp. f_equal. apply tab_ext. intros k Hk.
  unfold warm. destruct (Nat.ltb_spec (S k) p); [reflexivity|].
  rewrite fins_window. apply fmad_exact; [exact Hp|]. rewrite window_length by lia. lia.
Qed.

Lemma mad_nonneg l : l <> [] -> 0 <= mad l.
Proof.
  intros H. unfold mad, mean at 1. rewrite map_length. apply Rmult_le_pos.
  - rewrite Rsum_map_nth. apply sumf_nonneg. intros. apply Rabs_pos.
  - apply Rlt_le, Rinv_0_lt_compat, INR_pos. destruct l; [congruence|cbn; lia].
Qed.
