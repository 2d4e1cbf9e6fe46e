(** * IndExact: window sums, means and averages of indicator series in exact arithmetic. *)
From Coq Require Import Reals Lra ZArith Lia Bool List.
From Verif Require Import Base Num XReal Order SpecTa RSum Ta TaAvg TaRange TaTools IndForms.
Import ListNotations.
Set Implicit Arguments.
Local Open Scope R_scope.

Lemma tab_fins (f : nat -> @F XR) (g : nat -> R) n : (forall j, (j < n)%nat -> f j = Fin (g j)) -> tab n f = fins (tab n g).
Proof. intros H. rewrite fins_tab. apply tab_ext. exact H. Qed.
Lemma runF_exact (p : nat) (f : nat -> @F XR) (g : nat -> R) n i : (i < n)%nat -> (forall j, (j < n)%nat -> f j = Fin (g j)) ->
  runF (N := XR) p f (S i) = Fin (Rsum (window (tab n g) i p)).
Proof.
  intros Hi H. rewrite <- (@runSum_T XR p n f) by lia. rewrite (tab_fins f g H). apply runSum_exact. now rewrite tab_length.
Qed.
Lemma smaF_exact (p : nat) (f : nat -> @F XR) (g : nat -> R) n i : (1 <= p)%nat -> (i < n)%nat -> (forall j, (j < n)%nat -> f j = Fin (g j)) ->
  smaF (N := XR) p f i = Fin (mean (window (tab n g) i p)).
Proof.
  intros Hp Hi H. pose proof (@Sma_exact p (tab n g) Hp) as E. rewrite <- (tab_fins f g H) in E. rewrite (@Sma_T XR) in E by lia. rewrite Nat2Z.id, tab_length in E.
  injection E as E. apply (f_equal (fun l => nth i l (Fin 0))) in E. rewrite !tab_nth in E by exact Hi. exact E.
Qed.
Lemma Rsum_bounds l a b : (forall x, In x l -> a <= x <= b) -> a * INR (length l) <= Rsum l <= b * INR (length l).
Proof.
  induction l as [|x l IH]; intros H; [unfold Rsum; cbn; lra|]. rewrite Rsum_cons. cbn [length]. rewrite S_INR.
  destruct (H x (or_introl eq_refl)). destruct IH; [intros; apply H; now right|]. nra.
Qed.
Lemma mean_bounds l a b : l <> [] -> (forall x, In x l -> a <= x <= b) -> a <= mean l <= b.
Proof.
  intros Hl H. pose proof (Rsum_bounds l H). assert (0 < INR (length l)) by (apply INR_pos; destruct l; [congruence|cbn [length]; lia]).
  unfold mean. split; apply Rmult_le_reg_r with (INR (length l)); try assumption; unfold Rdiv; rewrite Rmult_assoc, Rinv_l by lra; lra.
Qed.
Lemma window_not_nil A (l : list A) i p : (i < length l)%nat -> (1 <= p)%nat -> window l i p <> [].
Proof. intros Hi Hp E. apply (f_equal (@length A)) in E. rewrite window_length in E by exact Hi. cbn [length] in E. lia. Qed.
Lemma In_window_tab A (f : nat -> A) n i p x : In x (window (tab n f) i p) -> exists j, (j < n)%nat /\ x = f j.
Proof. intros H. apply window_In in H. unfold tab in H. apply in_map_iff in H as (j & <- & Hj). apply in_seq in Hj. exists j. split; [lia|reflexivity]. Qed.
