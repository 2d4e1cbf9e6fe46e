(** * XReal: exact arithmetic over the reals extended with NaN and infinities.

    The idealisation of float64 without rounding, overflow or signed zero.
    Division by zero, NaN and infinities behave as in IEEE-754, so the guards in
    the code (IsNaN, IsInf, == 0) keep their meaning. *)
From Coq Require Export Reals Lra.
From Verif Require Import Base Num.
Global Open Scope Z_scope.

Inductive xr : Type := Fin (r : R) | PInf | NInf | NaN.

Definition Rltb (a b : R) : bool := if Rlt_dec a b then true else false.
Definition Rleb (a b : R) : bool := if Rle_dec a b then true else false.
Definition Reqb (a b : R) : bool := if Req_EM_T a b then true else false.

Definition xneg (x : xr) : xr :=
  match x with Fin a => Fin (- a) | PInf => NInf | NInf => PInf | NaN => NaN end.
Definition xadd (x y : xr) : xr :=
  match x, y with
  | NaN, _ | _, NaN => NaN
  | Fin a, Fin b => Fin (a + b)
  | PInf, NInf | NInf, PInf => NaN
  | PInf, _ | _, PInf => PInf
  | NInf, _ | _, NInf => NInf
  end.
Definition xsub (x y : xr) : xr := xadd x (xneg y).
(** infinity of the sign of [a], NaN for 0 *)
Definition inf_sgn (a : R) : xr :=
  if Rltb 0 a then PInf else if Rltb a 0 then NInf else NaN.
Definition xmul (x y : xr) : xr :=
  match x, y with
  | NaN, _ | _, NaN => NaN
  | Fin a, Fin b => Fin (a * b)
  | Fin a, PInf | PInf, Fin a => inf_sgn a
  | Fin a, NInf | NInf, Fin a => inf_sgn (- a)
  | PInf, PInf | NInf, NInf => PInf
  | PInf, NInf | NInf, PInf => NInf
  end.
Definition xdiv (x y : xr) : xr :=
  match x, y with
  | NaN, _ | _, NaN => NaN
  | Fin a, Fin b => if Reqb b 0 then inf_sgn a else Fin (a / b)
  | Fin _, _ => Fin 0
  | PInf, Fin b => if Rltb b 0 then NInf else PInf
  | NInf, Fin b => if Rltb b 0 then PInf else NInf
  | _, _ => NaN
  end.
Definition xabs (x : xr) : xr :=
  match x with Fin a => Fin (Rabs a) | NaN => NaN | _ => PInf end.
Definition xsqrt (x : xr) : xr :=
  match x with
  | Fin a => if Rltb a 0 then NaN else Fin (sqrt a)
  | PInf => PInf | _ => NaN end.
Definition xlt (x y : xr) : bool :=
  match x, y with
  | NaN, _ | _, NaN => false
  | Fin a, Fin b => Rltb a b
  | NInf, NInf | PInf, PInf => false
  | NInf, _ | _, PInf => true
  | _, _ => false
  end.
Definition xle (x y : xr) : bool :=
  match x, y with
  | NaN, _ | _, NaN => false
  | Fin a, Fin b => Rleb a b
  | NInf, _ | _, PInf => true
  | _, _ => false
  end.
Definition xeq (x y : xr) : bool :=
  match x, y with
  | Fin a, Fin b => Reqb a b
  | PInf, PInf | NInf, NInf => true
  | _, _ => false
  end.
Definition Rround (a : R) : Z :=
  if Rltb a 0 then (- Int_part (- a + 1 / 2))%Z else Int_part (a + 1 / 2).
Definition Rtrunc (a : R) : Z :=
  if Rltb a 0 then (- Int_part (- a))%Z else Int_part a.
(** math.Pow on finite arguments: integer exponents exactly, otherwise
    [exp (y ln x)] for positive x; NaN for a negative base and non-integer exponent;
    0 to a negative power is +Inf. *)
Definition xpow (x y : xr) : xr :=
  match x, y with
  | Fin a, Fin b =>
      if Reqb (IZR (Int_part b)) b then
        (if Reqb a 0 then (if Rltb b 0 then PInf else Fin (powerRZ a (Int_part b)))
         else Fin (powerRZ a (Int_part b)))
      else if Rltb 0 a then Fin (Rpower a b)
      else if Reqb a 0 then (if Rltb b 0 then PInf else Fin 0)
      else NaN
  | _, _ => NaN
  end.

Definition XR : Num := {|
  F := xr;
  ofZ := fun z => Fin (IZR z);
  lit := fun n d => Fin (IZR n / IZR (Zpos d));
  fadd := xadd; fsub := xsub; fmul := xmul; fdiv := xdiv;
  fneg := xneg; fabs := xabs; fsqrt := xsqrt;
  flt := xlt; fle := xle; feq := xeq;
  isNaN := fun x => match x with NaN => true | _ => false end;
  isPInf := fun x => match x with PInf => true | _ => false end;
  isNInf := fun x => match x with NInf => true | _ => false end;
  signbit := fun x => match x with Fin a => Rltb a 0 | NInf => true | _ => false end;
  fround := fun x => match x with Fin a => Fin (IZR (Rround a)) | _ => x end;
  ftrunc := fun x => match x with Fin a => Rtrunc a | _ => 0%Z end;
  fatan := fun x => match x with Fin a => Fin (atan a) | PInf => Fin (PI / 2)
                               | NInf => Fin (- (PI / 2)) | NaN => NaN end;
  fpow := xpow;
  fpi := Fin PI
|}.

(** ** Boolean comparisons on R *)
Lemma Rltb_true a b : Rltb a b = true <-> (a < b)%R.
Proof. unfold Rltb; destruct (Rlt_dec a b); split; auto; discriminate. Qed.
Lemma Rltb_false a b : Rltb a b = false <-> (b <= a)%R.
Proof. unfold Rltb; destruct (Rlt_dec a b); split; try discriminate; try reflexivity; intros; lra. Qed.
Lemma Rleb_true a b : Rleb a b = true <-> (a <= b)%R.
Proof. unfold Rleb; destruct (Rle_dec a b); split; auto; discriminate. Qed.
Lemma Rleb_false a b : Rleb a b = false <-> (b < a)%R.
Proof. unfold Rleb; destruct (Rle_dec a b); split; try discriminate; try reflexivity; intros; lra. Qed.
Lemma Reqb_true a b : Reqb a b = true <-> a = b.
Proof. unfold Reqb; destruct (Req_EM_T a b); split; auto; try discriminate; tauto. Qed.
Lemma Reqb_false a b : Reqb a b = false <-> a <> b.
Proof. unfold Reqb; destruct (Req_EM_T a b); split; auto; try discriminate; tauto. Qed.
Lemma Rltb_spec a b : BoolSpec (a < b)%R (b <= a)%R (Rltb a b).
Proof. unfold Rltb; destruct (Rlt_dec a b); constructor; lra. Qed.
Lemma Rleb_spec a b : BoolSpec (a <= b)%R (b < a)%R (Rleb a b).
Proof. unfold Rleb; destruct (Rle_dec a b); constructor; lra. Qed.
Lemma Reqb_spec a b : BoolSpec (a = b)%R (a <> b)%R (Reqb a b).
Proof. unfold Reqb; destruct (Req_EM_T a b); constructor; assumption. Qed.

Lemma xdiv_fin a b : b <> 0%R -> xdiv (Fin a) (Fin b) = Fin (a / b).
Proof. intros H; cbn. destruct (Reqb_spec b 0); [contradiction|reflexivity]. Qed.

Lemma xdiv_00 : xdiv (Fin 0) (Fin 0) = NaN.
Proof.
  cbn. destruct (Reqb_spec 0 0) as [_|H]; [|lra]. unfold inf_sgn.
  destruct (Rltb_spec 0 0); [lra|reflexivity].
Qed.
Lemma Reqb_refl a : Reqb a a = true.
Proof. now apply Reqb_true. Qed.
Lemma inf_sgn_0 : inf_sgn 0 = NaN.
Proof. unfold inf_sgn. destruct (Rltb_spec 0 0); [lra|]. destruct (Rltb_spec 0 0); [lra|]. reflexivity. Qed.
