(** * OrderMore: math.Max and math.Min against the order, and the integers 1 and -1. *)
From Coq Require Import SpecFloat.
From Verif Require Import Base Num B64 XReal Order.
Set Implicit Arguments.

Record InfLaws (N : Num) : Prop := {
  il_p : forall x y : F, isPInf x = true -> flt x y = false;
  il_n : forall x y : F, isNInf x = true -> flt y x = false;
  il_pn : forall x : F, isPInf x = true -> nn x;
  il_nn : forall x : F, isNInf x = true -> nn x }.
Lemma B64_inf L : InfLaws (B64 L).
Proof.
  split; cbn.
  - intros [s|[]| |s m e] [s'|[]| |[] m' e']; cbn; intros; try discriminate; reflexivity.
  - intros [s|[]| |s m e] [s'|[]| |[] m' e']; cbn; intros; try discriminate; reflexivity.
  - intros [s|[]| |s m e]; cbn; intros; try discriminate; reflexivity.
  - intros [s|[]| |s m e]; cbn; intros; try discriminate; reflexivity.
Qed.
Lemma XR_inf : InfLaws XR.
Proof.
  split; cbn.
  - intros [a| | |] [b| | |]; cbn; intros; try discriminate; reflexivity.
  - intros [a| | |] [b| | |]; cbn; intros; try discriminate; reflexivity.
  - intros [a| | |]; cbn; intros; try discriminate; reflexivity.
  - intros [a| | |]; cbn; intros; try discriminate; reflexivity.
Qed.

(** 1 and -1 are distinct numbers *)
Record SignLaws (N : Num) : Prop := {
  sl_11 : feq (ofZ 1 : F) (ofZ 1) = true;
  sl_mm : feq (ofZ (-1) : F) (ofZ (-1)) = true;
  sl_1m : feq (ofZ 1 : F) (ofZ (-1)) = false;
  sl_m1 : feq (ofZ (-1) : F) (ofZ 1) = false;
  sl_00 : feq (ofZ 0 : F) (ofZ 0) = true;
  sl_n1 : isNaN (ofZ 1 : F) = false;
  sl_nm : isNaN (ofZ (-1) : F) = false }.
Lemma B64_sign L : SignLaws (B64 L).
Proof. split; vm_compute; reflexivity. Qed.
Lemma XR_sign : SignLaws XR.
Proof.
  split; cbn; try reflexivity; match goal with |- Reqb ?a ?b = _ => destruct (Reqb_spec a b); try reflexivity; lra end.
Qed.

Section Max.
Context {N : Num} (O : OrdLaws N) (I : InfLaws N).
Lemma flt_nan_l (x y : F) : isNaN x = true -> flt x y = false.
Proof. intros H. now destruct (@ol_lt_nan N O x y (or_introl H)). Qed.
Lemma flt_nan_r (x y : F) : isNaN y = true -> flt x y = false.
Proof. intros H. now destruct (@ol_lt_nan N O x y (or_intror H)). Qed.
Lemma flt_irr (x : F) : flt x x = false.
Proof. destruct (isNaN x) eqn:E; [now apply flt_nan_l|now apply (le_refl O)]. Qed.
Lemma fmax_l (x y : F) : flt (fmax x y) x = false.
Proof.
  unfold fmax. destruct (isPInf x) eqn:Px; [apply flt_irr|]. destruct (isPInf y) eqn:Py; [now apply (il_p I)|].
  destruct (isNaN x) eqn:Nx; [apply flt_irr|]. destruct (isNaN y) eqn:Ny; [now apply flt_nan_l|].
  destruct ((x ==~ fzero) && (x ==~ y)) eqn:Z.
  - apply andb_true_iff in Z as [_ Z]. apply (feq_le O) in Z; [|exact Nx|exact Ny]. destruct (signbit x); [apply Z|apply flt_irr].
  - destruct (y <~ x) eqn:E; [apply flt_irr|exact E].
Qed.
Lemma fmax_r (x y : F) : flt (fmax x y) y = false.
Proof.
  unfold fmax. destruct (isPInf x) eqn:Px; [now apply (il_p I)|]. destruct (isPInf y) eqn:Py; [apply flt_irr|].
  destruct (isNaN x) eqn:Nx; [now apply flt_nan_l|]. destruct (isNaN y) eqn:Ny; [apply flt_irr|].
  destruct ((x ==~ fzero) && (x ==~ y)) eqn:Z.
  - apply andb_true_iff in Z as [_ Z]. apply (feq_le O) in Z; [|exact Nx|exact Ny]. destruct (signbit x); [apply flt_irr|apply Z].
  - destruct (y <~ x) eqn:E; [|apply flt_irr]. now apply (ol_asym O).
Qed.
Lemma fmin_l (x y : F) : flt x (fmin x y) = false.
Proof.
  unfold fmin. destruct (isNInf x) eqn:Px; [apply flt_irr|]. destruct (isNInf y) eqn:Py; [now apply (il_n I)|].
  destruct (isNaN x) eqn:Nx; [apply flt_irr|]. destruct (isNaN y) eqn:Ny; [now apply flt_nan_r|].
  destruct ((x ==~ fzero) && (x ==~ y)) eqn:Z.
  - apply andb_true_iff in Z as [_ Z]. apply (feq_le O) in Z; [|exact Nx|exact Ny]. destruct (signbit x); [apply flt_irr|apply Z].
  - destruct (x <~ y) eqn:E; [apply flt_irr|exact E].
Qed.
Lemma fmin_r (x y : F) : flt y (fmin x y) = false.
Proof.
  unfold fmin. destruct (isNInf x) eqn:Px; [now apply (il_n I)|]. destruct (isNInf y) eqn:Py; [apply flt_irr|].
  destruct (isNaN x) eqn:Nx; [now apply flt_nan_r|]. destruct (isNaN y) eqn:Ny; [apply flt_irr|].
  destruct ((x ==~ fzero) && (x ==~ y)) eqn:Z.
  - apply andb_true_iff in Z as [_ Z]. apply (feq_le O) in Z; [|exact Nx|exact Ny]. destruct (signbit x); [apply Z|apply flt_irr].
  - destruct (x <~ y) eqn:E; [|apply flt_irr]. now apply (ol_asym O).
Qed.
Lemma fmax_in (x y : F) : fmax x y = x \/ fmax x y = y.
Proof. unfold fmax. repeat match goal with |- context [if ?b then _ else _] => destruct b end; auto. Qed.
Lemma fmin_in (x y : F) : fmin x y = x \/ fmin x y = y.
Proof. unfold fmin. repeat match goal with |- context [if ?b then _ else _] => destruct b end; auto. Qed.
(** < and > exclude each other *)
Lemma lt_excl (x y : F) : flt x y = true -> flt y x = false.
Proof. intros H. destruct (lt_nn O _ _ H). now apply (ol_asym O). Qed.
End Max.
