(** * TaAvg: moving sums and averages. *)
From Verif Require Import Base Num XReal Order Ta TaTools TaElem SpecTa RSum.
Set Implicit Arguments.

Section Gen.
Context {N : Num}.
Notation fl := (list F).

(** ** Sum and Sma: the running sum before bar [i] *)
Fixpoint runSum (p : nat) (xs : fl) (i : nat) : F :=
  match i with
  | O => fzero
  | S i' => let s := runSum p xs i' +~ nth i' xs fzero in
            if (p <=? i')%nat then s -~ nth (i' - p) xs fzero else s
  end.

Lemma Sum_gen (p : nat) xs :
  Sum (Z.of_nat p) xs = Ok (tab (length xs) (fun i => runSum p xs (S i))).
Proof.
  unfold Sum. rewrite make_len; cbn [bind]. unfold len at 1.
  change 0 with (Z.of_nat 0).
  set (out := fun i => runSum p xs (S i)).
  rewrite (@for_nat _ (fun i => (runSum p xs i, partial fzero out (length xs) i)) 0 (length xs)).
  - cbn [bind]. now rewrite partial_full.
  - lia.
  - now rewrite partial_0.
  - intros i Hi. rewrite (@get_nat _ xs i fzero) by lia. cbn [bind].
    destruct (Z.geb_spec (Z.of_nat i) (Z.of_nat p)) as [Hp|Hp].
    + replace (Z.of_nat i - Z.of_nat p)%Z with (Z.of_nat (i - p)) by lia.
      rewrite (@get_nat _ xs _ fzero) by lia. cbn [bind runSum].
      destruct (Nat.leb_spec p i); [|lia].
      rewrite partial_set; [reflexivity|lia|]. unfold out; cbn [runSum].
      destruct (Nat.leb_spec p i); [reflexivity|lia].
    + cbn [bind runSum]. destruct (Nat.leb_spec p i); [lia|].
      rewrite partial_set; [reflexivity|lia|]. unfold out; cbn [runSum].
      destruct (Nat.leb_spec p i); [lia|reflexivity].
Qed.

Lemma Sum_neg p xs : p < 0 -> xs <> [] -> Sum p xs = Panic.
Proof.
  intros Hp Hx. unfold Sum. rewrite make_len; cbn [bind].
  rewrite for_last_panic; [reflexivity|now apply len_pos|].
  intros [s r]. destruct (get xs (len xs - 1)); cbn [bind]; [|reflexivity].
  destruct (Z.geb_spec (len xs - 1) p); [|apply len_pos in Hx; lia].
  rewrite get_out by (right; lia). reflexivity.
Qed.

Definition sma_out (p : nat) (xs : fl) (i : nat) : F :=
  sma_clean (runSum p xs (S i) /~ ofZ (if (p <=? i)%nat then Z.of_nat p else Z.of_nat i + 1)).

Lemma Sma_gen (p : nat) xs : Sma (Z.of_nat p) xs = Ok (tab (length xs) (sma_out p xs)).
Proof.
  unfold Sma. rewrite make_len; cbn [bind]. unfold range_. unfold len.
  change 0 with (Z.of_nat 0).
  rewrite (@for_nat _ (fun i => (runSum p xs i, partial fzero (sma_out p xs) (length xs) i)) 0 (length xs)).
  - cbn [bind]. now rewrite partial_full.
  - lia.
  - now rewrite partial_0.
  - intros i Hi. rewrite (@get_nat _ xs i fzero) by lia. cbn [bind].
    destruct (Z.geb_spec (Z.of_nat i) (Z.of_nat p)) as [Hp|Hp].
    + replace (Z.of_nat i - Z.of_nat p)%Z with (Z.of_nat (i - p)) by lia.
      rewrite (@get_nat _ xs _ fzero) by lia. cbn [bind runSum].
      destruct (Nat.leb_spec p i); [|lia].
      rewrite partial_set; [reflexivity|lia|]. unfold sma_out; cbn [runSum].
      destruct (Nat.leb_spec p i); [reflexivity|lia].
    + cbn [bind runSum]. destruct (Nat.leb_spec p i); [lia|].
      rewrite partial_set; [reflexivity|lia|]. unfold sma_out; cbn [runSum].
      destruct (Nat.leb_spec p i); [lia|reflexivity].
Qed.

Lemma Sma_neg p xs : p < 0 -> xs <> [] -> Sma p xs = Panic.
Proof.
  intros Hp Hx. unfold Sma. rewrite make_len; cbn [bind]. unfold range_.
  rewrite for_last_panic; [reflexivity|now apply len_pos|].
  intros [s r]. destruct (get xs (len xs - 1)); cbn [bind]; [|reflexivity].
  destruct (Z.geb_spec (len xs - 1) p); [|apply len_pos in Hx; lia].
  rewrite get_out by (right; lia). reflexivity.
Qed.

Lemma Sma_nil p : Sma p [] = Ok [].
Proof. reflexivity. Qed.

(** ** Ema *)
Fixpoint emaS (p : Z) (xs : fl) (i : nat) : F :=
  match i with
  | O => nth 0 xs fzero
  | S i' => (ofZ 2 *~ nth i xs fzero +~ ofZ (p - 1) *~ emaS p xs i') /~ ofZ (p + 1)
  end.

Lemma Ema_gen p xs : Ema p xs = Ok (tab (length xs) (emaS p xs)).
Proof.
  unfold Ema. rewrite make_len; cbn [bind]. unfold range_.
  apply fill_loop0. intros i Hi. rewrite (@get_nat _ xs i fzero) by lia. cbn [bind].
  destruct i as [|i].
  - cbn [Z.of_nat Z.gtb Z.compare]. change 0 with (Z.of_nat 0). apply partial_set; auto.
  - destruct (Z.gtb_spec (Z.of_nat (S i)) 0); [|lia].
    replace (Z.of_nat (S i) - 1) with (Z.of_nat i) by lia.
    rewrite partial_get by lia. cbn [bind]. apply partial_set; auto.
Qed.

(** ** Dema *)
Lemma Dema_gen p xs : Dema p xs =
  Ok (tab (length xs) (fun i => emaS p xs i *~ ofZ 2 +~
                                emaS p (tab (length xs) (emaS p xs)) i *~ ofZ (-1))).
Proof.
  unfold Dema. rewrite Ema_gen; cbn [bind]. rewrite Ema_gen, tab_length; cbn [bind].
  rewrite MultiplyBy_ok; cbn [bind].
  rewrite Subtract_ok by (rewrite map_length, !tab_length; lia).
  f_equal. rewrite zipWith_tab with (d := fzero) by (rewrite map_length, !tab_length; lia).
  rewrite map_length, tab_length. apply tab_ext. intros k Hk.
  rewrite tab_nth by lia.
  rewrite nth_indep with (d' := fzero *~ ofZ 2) by (rewrite map_length, tab_length; lia).
  rewrite map_nth with (f := fun v => v *~ ofZ 2), tab_nth by lia. reflexivity.
Qed.

(** ** Rma: (running sum, result) after bar [i] *)
Fixpoint rmaS (p : Z) (xs : fl) (i : nat) : F * F :=
  match i with
  | O => (fzero, fzero)
  | S i' =>
      let '(s, r) := rmaS p xs i' in
      if Z.of_nat i <? p then
        let s := s +~ nth i xs fzero in (s, s /~ ofZ (Z.of_nat i + 1))
      else
        let s := r *~ ofZ (p - 1) +~ nth i xs fzero in (s, s /~ ofZ p)
  end.

Lemma Rma_gen p xs : Rma p xs = Ok (tab (length xs) (fun i => snd (rmaS p xs i))).
Proof.
  unfold Rma. rewrite make_len; cbn [bind]. unfold range_. unfold len.
  change 0 with (Z.of_nat 0).
  set (out := fun i => snd (rmaS p xs i)).
  rewrite (@for_nat _ (fun i => (fst (rmaS p xs (pred i)), partial fzero out (length xs) i)) 0 (length xs)).
  - cbn [bind]. now rewrite partial_full.
  - lia.
  - now rewrite partial_0.
  - intros i Hi. rewrite (@get_nat _ xs i fzero) by lia. cbn [bind].
    destruct i as [|i].
    + cbn [Z.of_nat Z.ltb Z.compare]. f_equal. f_equal.
      apply partial_skip; [lia|reflexivity].
    + destruct (Z.ltb_spec (Z.of_nat (S i)) 1); [lia|].
      replace (Z.of_nat (S i) - 1) with (Z.of_nat i) by lia.
      cbn [pred].
      assert (Eo : out (S i) = snd (rmaS p xs (S i))) by reflexivity.
      cbn [rmaS] in Eo |- *. rewrite partial_get by lia.
      unfold out at 1. destruct (rmaS p xs i) as [s r]. cbn [fst snd] in *.
      destruct (Z.ltb_spec (Z.of_nat (S i)) p); cbn [bind fst snd] in *.
      * rewrite partial_set; [reflexivity|lia|now rewrite Eo].
      * rewrite partial_set; [reflexivity|lia|now rewrite Eo].
Qed.

Lemma rma_recurrence p xs i : p <= Z.of_nat (S i) ->
  snd (rmaS p xs (S i)) = (snd (rmaS p xs i) *~ ofZ (p - 1) +~ nth (S i) xs fzero) /~ ofZ p.
Proof.
  intros H. cbn [rmaS]. destruct (rmaS p xs i) as [s r]. destruct (Z.ltb_spec (Z.of_nat (S i)) p); [lia|reflexivity].
Qed.
End Gen.

(* ------------------------------------------------------------------ *)
(** ** Exact arithmetic *)
Local Notation pre xs := (sumf (fun k => nth k xs 0%R)).

Lemma fins_nth0 l k : nth k (fins l) (@fzero XR) = Fin (nth k l 0%R).
Proof. apply fins_nth. Qed.

Lemma runSum_pre p xs i : runSum (N := XR) p (fins xs) i = Fin (pre xs i - pre xs (i - p)).
Proof.
  induction i as [|i IH].
  - cbn [runSum sumf Nat.sub]. rewrite xr_zero. f_equal; lra.
  - cbn [runSum]. rewrite IH, !fins_nth0. xr.
    destruct (Nat.leb_spec p i) as [H|H].
    + replace (S i - p)%nat with (S (i - p)) by lia. cbn [sumf]. f_equal. lra.
    + replace (S i - p)%nat with 0%nat by lia. replace (i - p)%nat with 0%nat by lia.
      cbn [sumf]. f_equal. lra.
Qed.

Lemma runSum_exact p xs i : (i < length xs)%nat ->
  runSum (N := XR) p (fins xs) (S i) = Fin (Rsum (window xs i p)).
Proof. intros H. rewrite runSum_pre, Rsum_window by exact H. reflexivity. Qed.

Lemma Sum_exact (p : nat) (xs : list R) :
  Sum (N := XR) (Z.of_nat p) (fins xs) =
  Ok (tab (length xs) (fun i => Fin (Rsum (window xs i p)))).
Proof.
  rewrite Sum_gen, fins_length. f_equal. apply tab_ext. intros k Hk. now apply runSum_exact.
Qed.

Lemma sma_clean_fin x : sma_clean (N := XR) (Fin x) = Fin x.
Proof. reflexivity. Qed.

Lemma Sma_exact (p : nat) (xs : list R) : (1 <= p)%nat ->
  Sma (N := XR) (Z.of_nat p) (fins xs) =
  Ok (tab (length xs) (fun i => Fin (mean (window xs i p)))).
Proof.
  intros Hp. rewrite Sma_gen, fins_length. f_equal. apply tab_ext. intros k Hk.
  unfold sma_out. rewrite runSum_exact by exact Hk.
  assert (E : IZR (if (p <=? k)%nat then Z.of_nat p else Z.of_nat k + 1) = INR (length (window xs k p))).
  { rewrite window_length by exact Hk. rewrite <- IZR_INR. f_equal.
    destruct (Nat.leb_spec p k); lia. }
  rewrite xr_ofZ, E. rewrite xr_div, sma_clean_fin; [reflexivity|].
  apply INR_nz. rewrite window_length by exact Hk. lia.
Qed.

Lemma Sma_zero_exact (xs : list R) :
  Sma (N := XR) 0 (fins xs) = Ok (repeat (Fin 0) (length xs)).
Proof.
  change 0%Z with (Z.of_nat 0). rewrite Sma_gen, fins_length. f_equal.
  rewrite <- (partial_full (Fin 0)). symmetry. apply partial_skips; [lia|]. intros k Hk.
  unfold sma_out. rewrite runSum_exact by exact Hk. rewrite (Rsum_window xs 0) by exact Hk.
  rewrite Nat.sub_0_r. destruct (Nat.leb_spec 0 k); [|lia].
  replace (pre xs (S k) - pre xs (S k))%R with 0%R by lra.
  change (sma_clean (N:=XR) (xdiv (Fin 0) (Fin 0)) = Fin 0). rewrite xdiv_00. reflexivity.
Qed.

(** ** Ema *)
Definition ema_a (p : Z) : R := (2 / (IZR p + 1))%R.

Lemma ema_a_range p : 1 <= p -> (0 < ema_a p <= 1)%R.
Proof.
  intros H. unfold ema_a. apply IZR_le in H. split.
  - apply Rdiv_lt_0_compat; lra.
  - apply Rmult_le_reg_r with (IZR p + 1)%R; [lra|]. unfold Rdiv. rewrite Rmult_assoc, Rinv_l by lra. lra.
Qed.

Lemma emaS_exact p xs i : 1 <= p ->
  emaS (N := XR) p (fins xs) i = Fin (ema (ema_a p) (fun k => nth k xs 0%R) i).
Proof.
  intros Hp. assert (Hp' := Hp). apply IZR_le in Hp'.
  induction i as [|i IH].
  - cbn [emaS ema]. apply fins_nth0.
  - cbn [emaS ema]. rewrite IH, fins_nth0. xr.
    rewrite xr_div by (rewrite plus_IZR; lra). rewrite plus_IZR, minus_IZR. f_equal.
    unfold ema_a. field. lra.
Qed.

Lemma Ema_exact p xs : 1 <= p ->
  Ema (N := XR) p (fins xs) = Ok (tab (length xs) (fun i => Fin (ema (ema_a p) (fun k => nth k xs 0%R) i))).
Proof.
  intros Hp. rewrite Ema_gen, fins_length. f_equal. apply tab_ext. intros k _. now apply emaS_exact.
Qed.

Lemma ema_bounds a xs i lo hi : (0 <= a <= 1)%R ->
  (forall k, (k <= i)%nat -> (lo <= xs k <= hi)%R) -> (lo <= ema a xs i <= hi)%R.
Proof.
  intros Ha. induction i as [|i IH]; intros H; cbn [ema].
  - apply H; lia.
  - assert (lo <= ema a xs i <= hi)%R by (apply IH; intros; apply H; lia).
    assert (lo <= xs (S i) <= hi)%R by (apply H; lia). nra.
Qed.

Lemma ema_const a c i : ema a (fun _ => c) i = c.
Proof. induction i as [|i IH]; cbn [ema]; [reflexivity|]. rewrite IH; lra. Qed.

Lemma ema_ext a f g i : (forall k, (k <= i)%nat -> f k = g k) -> ema a f i = ema a g i.
Proof.
  induction i as [|i IH]; intros H; cbn [ema].
  - apply H; lia.
  - rewrite IH, (H (S i)); auto.
Qed.

Lemma ema_linear a f g u v i :
  ema a (fun k => (u * f k + v * g k)%R) i = (u * ema a f i + v * ema a g i)%R.
Proof. induction i as [|i IH]; cbn [ema]; [lra|]. rewrite IH; lra. Qed.

(** Closed form: the latest value has weight a, the one k bars earlier a(1-a)^k,
    and the very first value the remaining (1-a)^i. *)
Lemma ema_closed a f i :
  ema a f i = (sumf (fun k => a * (1 - a) ^ k * f (i - k)%nat) i + (1 - a) ^ i * f 0%nat)%R.
Proof.
  induction i as [|i IH].
  - cbn. lra.
  - cbn [ema]. rewrite IH. rewrite sumf_first. cbn [pow Nat.sub].
    rewrite Rmult_plus_distr_l, <- sumf_scal.
    rewrite (sumf_ext (fun k => ((1 - a) * (a * (1 - a) ^ k * f (i - k)%nat))%R)
                      (fun k => (a * ((1 - a) * (1 - a) ^ k) * f (i - k)%nat)%R)) by (intros; ring).
    rewrite Nat.sub_0_r || idtac. ring.
Qed.

(** ** Dema *)
Lemma Dema_exact p xs : 1 <= p ->
  Dema (N := XR) p (fins xs) =
  Ok (tab (length xs) (fun i =>
        let e := ema (ema_a p) (fun k => nth k xs 0%R) in Fin (2 * e i - ema (ema_a p) e i)%R)).
Proof.
  intros Hp. rewrite Dema_gen, fins_length. f_equal. apply tab_ext. intros k Hk.
  rewrite emaS_exact by exact Hp.
  assert (E : tab (length xs) (emaS (N := XR) p (fins xs)) =
              fins (tab (length xs) (ema (ema_a p) (fun k => nth k xs 0%R)))).
  { rewrite fins_tab. apply tab_ext. intros j _. now apply emaS_exact. }
  rewrite E, emaS_exact by exact Hp. xr. cbn zeta. f_equal.
  rewrite (ema_ext (ema_a p) (fun k0 => nth k0 (tab (length xs) (ema (ema_a p) (fun k1 => nth k1 xs 0%R))) 0%R)
             (ema (ema_a p) (fun k1 => nth k1 xs 0%R))) by (intros; apply tab_nth; lia).
  lra.
Qed.

(** ** Rma *)
Lemma rmaS_warm p xs i : Z.of_nat i < p \/ i = 0%nat ->
  rmaS (N := XR) p (fins xs) i =
  (Fin (pre xs (S i) - nth 0 xs 0%R), Fin ((pre xs (S i) - nth 0 xs 0%R) / INR (S i))%R).
Proof.
  induction i as [|i IH]; intros H.
  - cbn [rmaS sumf]. rewrite xr_zero. f_equal; f_equal; [lra|]. unfold Rdiv. lra.
  - cbn [rmaS]. rewrite IH by lia. destruct (Z.ltb_spec (Z.of_nat (S i)) p); [|lia].
    rewrite fins_nth0. xr.
    assert (Ez : IZR (Z.of_nat (S i) + 1) = INR (S (S i))) by (rewrite <- IZR_INR; f_equal; lia).
    rewrite Ez. rewrite xr_div by (apply INR_nz; lia).
    cbn [sumf]. f_equal; f_equal; [lra|]. f_equal. lra.
Qed.
