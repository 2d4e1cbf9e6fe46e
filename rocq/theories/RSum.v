(** * RSum: finite sums of reals. *)
From Verif Require Import Base Num XReal TaTools SpecTa.
Set Implicit Arguments.
Local Open Scope R_scope.

Fixpoint sumf (g : nat -> R) (n : nat) : R :=
  match n with O => 0 | S k => sumf g k + g k end.

Lemma sumf_ext g h n : (forall k, (k < n)%nat -> g k = h k) -> sumf g n = sumf h n.
Proof. induction n as [|n IH]; intros H; cbn; [reflexivity|]. rewrite IH, H; auto. Qed.
Lemma sumf_first g n : sumf g (S n) = g 0%nat + sumf (fun k => g (S k)) n.
Proof. induction n as [|n IH]; [cbn; lra|]. cbn [sumf] in *. rewrite IH. lra. Qed.
Lemma sumf_plus g h n : sumf (fun k => g k + h k) n = sumf g n + sumf h n.
Proof. induction n as [|n IH]; cbn; [lra|]. rewrite IH; lra. Qed.
Lemma sumf_minus g h n : sumf (fun k => g k - h k) n = sumf g n - sumf h n.
Proof. induction n as [|n IH]; cbn; [lra|]. rewrite IH; lra. Qed.
Lemma sumf_scal c g n : sumf (fun k => c * g k) n = c * sumf g n.
Proof. induction n as [|n IH]; cbn; [lra|]. rewrite IH; lra. Qed.
Lemma sumf_const c n : sumf (fun _ => c) n = INR n * c.
Proof. induction n as [|n IH]; [cbn; lra|]. cbn [sumf]. rewrite IH, S_INR; lra. Qed.
Lemma sumf_nonneg g n : (forall k, (k < n)%nat -> 0 <= g k) -> 0 <= sumf g n.
Proof. induction n as [|n IH]; intros H; cbn; [lra|]. assert (0 <= g n) by (apply H; lia). assert (0 <= sumf g n) by (apply IH; intros; apply H; lia). lra. Qed.
Lemma sumf_le g h n : (forall k, (k < n)%nat -> g k <= h k) -> sumf g n <= sumf h n.
Proof. induction n as [|n IH]; intros H; cbn; [lra|]. assert (g n <= h n) by (apply H; lia). assert (sumf g n <= sumf h n) by (apply IH; intros; apply H; lia). lra. Qed.
Lemma sumf_split g n m : sumf g (n + m) = sumf g n + sumf (fun k => g (n + k)%nat) m.
Proof.
  induction m as [|m IH]; [rewrite Nat.add_0_r; cbn [sumf]; lra|].
  rewrite Nat.add_succ_r. cbn [sumf]. rewrite IH. lra.
Qed.

Lemma Rsum_nil : Rsum [] = 0. Proof. reflexivity. Qed.
Lemma Rsum_cons x l : Rsum (x :: l) = x + Rsum l. Proof. reflexivity. Qed.
Lemma Rsum_app a b : Rsum (a ++ b) = Rsum a + Rsum b.
Proof. induction a as [|x a IH]; cbn [app]; rewrite ?Rsum_nil, ?Rsum_cons; [lra|]. rewrite IH; lra. Qed.
Lemma Rsum_tab n f : Rsum (tab n f) = sumf f n.
Proof. induction n as [|n IH]; [reflexivity|]. rewrite tab_S, Rsum_app, IH. unfold Rsum; cbn [fold_right sumf]. lra. Qed.
Lemma Rsum_nth l : Rsum l = sumf (fun k => nth k l 0) (length l).
Proof. rewrite (tab_of_list l 0) at 1. now rewrite Rsum_tab. Qed.
Lemma Rsum_map_nth g l : Rsum (map g l) = sumf (fun k => g (nth k l 0)) (length l).
Proof.
  rewrite (tab_of_list l 0) at 1. unfold tab. rewrite map_map.
  change (Rsum (tab (length l) (fun k => g (nth k l 0))) = sumf (fun k => g (nth k l 0)) (length l)).
  apply Rsum_tab.
Qed.

(** Windows as index ranges *)
Lemma window_tab A (l : list A) i p d : (i < length l)%nat ->
  window l i p = tab (Nat.min (S i) p) (fun j => nth (S i - Nat.min (S i) p + j) l d).
Proof.
  intros H. rewrite (tab_of_list (window l i p) d), window_length by exact H.
  apply tab_ext. intros k Hk. now apply window_nth.
Qed.

Lemma window_full A (l : list A) i p d : (i < length l)%nat -> (p <= S i)%nat ->
  window l i p = tab p (fun j => nth (S i - p + j) l d).
Proof. intros H Hp. rewrite (@window_tab _ l i p d) by exact H. replace (Nat.min (S i) p) with p by lia. reflexivity. Qed.

Lemma Rsum_window l i p : (i < length l)%nat ->
  Rsum (window l i p) = sumf (fun k => nth k l 0) (S i) - sumf (fun k => nth k l 0) (S i - p).
Proof.
  intros H. rewrite (@window_tab _ l i p 0) by exact H. rewrite Rsum_tab.
  pose proof (sumf_split (fun k => nth k l 0) (S i - Nat.min (S i) p) (Nat.min (S i) p)) as E.
  replace (S i - Nat.min (S i) p + Nat.min (S i) p)%nat with (S i) in E by lia.
  replace (S i - p)%nat with (S i - Nat.min (S i) p)%nat by lia. lra.
Qed.

Lemma INR_pos n : (0 < n)%nat -> 0 < INR n.
Proof. intros; now apply lt_0_INR. Qed.
Lemma INR_nz n : (0 < n)%nat -> INR n <> 0.
Proof. intros H E. apply INR_pos in H. lra. Qed.
Lemma IZR_INR n : IZR (Z.of_nat n) = INR n.
Proof. symmetry; apply INR_IZR_INZ. Qed.

(** ** Evaluation of extended-real operations on finite arguments *)
Lemma xr_add a b : @fadd XR (Fin a) (Fin b) = Fin (a + b).
Proof. reflexivity. Qed.
Lemma xr_sub a b : @fsub XR (Fin a) (Fin b) = Fin (a - b).
Proof. reflexivity. Qed.
Lemma xr_mul a b : @fmul XR (Fin a) (Fin b) = Fin (a * b).
Proof. reflexivity. Qed.
Lemma xr_div a b : b <> 0 -> @fdiv XR (Fin a) (Fin b) = Fin (a / b).
Proof. apply xdiv_fin. Qed.
Lemma xr_ofZ z : @ofZ XR z = Fin (IZR z).
Proof. reflexivity. Qed.
Lemma xr_zero : @fzero XR = Fin 0.
Proof. reflexivity. Qed.
Lemma fins_nth l k : nth k (fins l) (Fin 0) = Fin (nth k l 0).
Proof. unfold fins. change (Fin 0) with ((fun x => Fin x) 0). apply (map_nth Fin). Qed.
Lemma fins_length l : length (fins l) = length l.
Proof. apply map_length. Qed.
Lemma fins_len l : len (fins l) = Z.of_nat (length l).
Proof. unfold len; now rewrite fins_length. Qed.
Lemma fins_tab n f : fins (tab n f) = tab n (fun k => Fin (f k)).
Proof. unfold fins, tab. apply map_map. Qed.
Lemma fins_get l k : (k < length l)%nat -> get (fins l) (Z.of_nat k) = Ok (Fin (nth k l 0)).
Proof. intros H. rewrite (@get_nat _ (fins l) k (Fin 0)) by (rewrite fins_length; lia). now rewrite fins_nth. Qed.

Ltac xr := repeat (progress (rewrite ?xr_ofZ, ?xr_zero, ?xr_add, ?xr_sub, ?xr_mul)).
