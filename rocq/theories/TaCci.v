(** * TaCci: CCI and AiCoinCCI in exact arithmetic. *)
From Verif Require Import Base Num XReal Ta TaTools TaElem SpecTa RSum TaAvg TaStat TaDev TaReg.
Set Implicit Arguments.
Local Open Scope R_scope.

(** Deviation of the last value from the window mean in units of 0.015 mean
    absolute deviations; 0/0 on a flat window. *)
Definition cci_real (w : list R) (x : R) : xr :=
  if Reqb (mad w) 0 then NaN else Fin ((x - mean w) / (15 / 1000 * mad w)).

Lemma mad_zero_mean w x : In x w -> mad w = 0 -> x = mean w.
Proof.
  intros Hx Hm. assert (Hw : w <> []) by (intros ->; destruct Hx).
  unfold mad, mean at 1 in Hm.
  assert (Hs : Rsum (map (fun x => Rabs (x - mean w)) w) = 0).
  { rewrite map_length in Hm. assert (Hp : INR (length w) <> 0) by (apply INR_nz; destruct w; [congruence|cbn; lia]).
    apply (f_equal (fun t => t * INR (length w))) in Hm. unfold Rdiv in Hm.
    rewrite Rmult_assoc, Rinv_l, Rmult_1_r, Rmult_0_l in Hm by exact Hp. exact Hm. }
  clear Hm. assert (H0 : Rabs (x - mean w) = 0).
  { revert Hs Hx. generalize (mean w) as m. intros m. induction w as [|y w IH]; intros Hs Hx; [destruct Hx|].
    cbn [map] in Hs. rewrite Rsum_cons in Hs.
    assert (Hn : 0 <= Rsum (map (fun x => Rabs (x - m)) w)).
    { clear. induction w as [|z w IH]; cbn [map]; [unfold Rsum; cbn; lra|]. rewrite Rsum_cons. pose proof (Rabs_pos (z - m)). lra. }
    pose proof (Rabs_pos (y - m)). destruct Hx as [->|Hx]; [lra|]. apply IH; [|lra|exact Hx].
    intros ->; destruct Hx. }
  destruct (Req_dec (x - mean w) 0) as [E|E]; [lra|]. apply Rabs_no_R0 in E. lra.
Qed.

Lemma last_in_window (xs : list R) i p : (i < length xs)%nat -> (1 <= p)%nat -> In (nth i xs 0) (window xs i p).
Proof.
  intros Hi Hp. rewrite (@window_tab _ xs i p 0 Hi). unfold tab. apply in_map_iff.
  exists (Nat.min (S i) p - 1)%nat. split; [f_equal; lia|]. apply in_seq. lia.
Qed.

Lemma CCI_exact (p : nat) (xs : list R) : (1 <= p)%nat ->
  CCI (N := XR) (fins xs) (Z.of_nat p) (Z.of_nat p) =
  Ok (tab (length xs) (fun i => if (S i <? p)%nat then Fin 0 else cci_real (window xs i p) (nth i xs 0))).
Proof.
  intros Hp. rewrite CCI_gen by exact Hp. rewrite fins_length. f_equal. apply tab_ext. intros i Hi.
  unfold warm. destruct (Nat.ltb_spec (S i) p) as [H|H]; [reflexivity|].
  rewrite fins_nth0.
  assert (Hs : forall k, (k < length xs)%nat -> sma_out (N := XR) p (fins xs) k = Fin (mean (window xs k p))).
  { intros k Hk. pose proof (Sma_exact xs Hp) as E. rewrite Sma_gen in E. injection E as E.
    apply (f_equal (fun l => nth k l (Fin 0))) in E. rewrite fins_length in E. rewrite !tab_nth in E by exact Hk. exact E. }
  rewrite Hs by exact Hi. unfold md_at. rewrite tab_nth by exact Hi. rewrite Hs by exact Hi.
  rewrite fins_window. rewrite xr_zero. rewrite fold_abs_fins. rewrite Rplus_0_l.
  rewrite xr_ofZ. rewrite xr_div by (rewrite IZR_INR; apply INR_nz; lia).
  assert (Hl : length (window xs i p) = p) by (rewrite window_length_eq by exact Hi; lia).
  assert (Em : Rsum (map (fun x => Rabs (x - mean (window xs i p))) (window xs i p)) / IZR (Z.of_nat p) = mad (window xs i p)).
  { unfold mad at 1, mean at 2. rewrite map_length, Hl, IZR_INR. reflexivity. }
  rewrite Em. rewrite xr_sub. change (@lit XR 15 1000) with (Fin (15 / 1000)). rewrite xr_mul. unfold cci_real.
  destruct (Reqb_spec (mad (window xs i p)) 0) as [E0|E0].
  - rewrite E0. rewrite (@mad_zero_mean _ (nth i xs 0) (last_in_window xs Hi Hp) E0).
    replace (mean (window xs i p) - mean (window xs i p)) with 0 by ring. rewrite Rmult_0_r.
    cbn. rewrite Reqb_refl. apply inf_sgn_0.
  - apply xr_div. intros E. apply E0. lra.
Qed.

Lemma AiCoinCCI_exact (p : nat) (xs : list R) factor : (1 <= p)%nat ->
  AiCoinCCI (N := XR) (fins xs) (Z.of_nat p) factor =
  Ok (tab (length xs) (fun i => if (S i <? p)%nat then Fin 0 else
        let w := window xs i p in
        if Reqb (mad w) 0 then Fin 0 else Fin ((nth i xs 0 - mean w) / (15 / 1000 * mad w)))).
Proof.
  intros Hp. erewrite AiCoinCCI_gen; [|apply MA_exact; exact Hp|apply Dev_exact; exact Hp| |];
    [|rewrite tab_length, fins_length; reflexivity..].
  rewrite fins_length. apply f_equal, tab_ext. intros i Hi. rewrite !tab_nth by exact Hi.
  unfold aicci_at. destruct (S i <? p)%nat; cbn -[Reqb mad mean window nth Rdiv Rmult].
  - now rewrite Reqb_refl.
  - cbv zeta. destruct (Reqb_spec (mad (window xs i p)) 0) as [E0|E0]; [reflexivity|].
    rewrite fins_nth0. apply (@xr_div (nth i xs 0 - mean (window xs i p)) (15 / 1000 * mad (window xs i p))). intros E. apply E0. lra.
Qed.

Lemma AiCoinCCI_factor {N : Num} (xs : list F) p f g : AiCoinCCI xs p f = AiCoinCCI xs p g.
Proof. reflexivity. Qed.
