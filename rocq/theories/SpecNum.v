(** * SpecNum: the two readings of a number in the range theorems.

    [Exact]: prices are real numbers (XReal.v: reals, two infinities, NaN).
    [Float64 L]: prices are IEEE-754 binary64 values, the arithmetic rounds
    (B64.v); [L] is any math library (pow, exp, ...). *)
From Coq Require Import Reals Lra ZArith Lia Bool List SpecFloat.
From Flocq Require Import Core Plus_error.
From Verif Require Import Base Num B64 XReal Order Rounding FloatLaws FloatOrder FloatBounds.
Import ListNotations.
Set Implicit Arguments.
Local Open Scope R_scope.

Inductive Model := Exact | Float64 (L : MathLib).
Definition num (m : Model) : Num := match m with Exact => XR | Float64 L => B64 L end.
(** [x] is the number [r], neither infinite nor NaN *)
Definition number (m : Model) : @F (num m) -> R -> Prop :=
  match m return @F (num m) -> R -> Prop with
  | Exact => fun x r => x = Fin r
  | Float64 L => fun x r => fin x /\ val x = r
  end.
(** a price: a number, in float64 of magnitude at most 2^960, so that sums over a window do not overflow *)
Definition price (m : Model) (x : @F (num m)) : Prop :=
  exists r, number m x r /\ match m with Exact => True | Float64 _ => Rabs r <= 2 ^ 960 end.
(** any datum: in float64, any bit pattern, infinities and NaN included ([valid] rules out encodings that are none) *)
Definition datum (m : Model) : @F (num m) -> Prop :=
  match m return @F (num m) -> Prop with Exact => fun _ => True | Float64 L => valid end.
(** [x] is a number between [a] and [b] *)
Definition within (m : Model) (a b : R) (x : @F (num m)) : Prop := exists r, number m x r /\ a <= r <= b.

(** ** Laws of both models, for the proofs *)
Definition ext (m : Model) : @F (num m) -> xr := match m return @F (num m) -> xr with Exact => fun x => x | Float64 L => bext end.
Definition rd (m : Model) : R -> xr := match m with Exact => Fin | Float64 _ => brd end.
Lemma rnd_laws (m : Model) : RndLaws (num m) (@datum m) (@ext m) (rd m).
Proof. destruct m as [|L]; [exact xr_rnd|exact (B64_rnd L)]. Qed.
Lemma ord_laws (m : Model) : OrdLaws (num m).
Proof. destruct m as [|L]; [exact XR_ord|exact (B64_ord L)]. Qed.
Lemma number_ext (m : Model) (x : @F (num m)) r : number m x r <-> datum m x /\ ext m x = Fin r.
Proof.
  destruct m as [|L]; cbn; [tauto|]. split.
  - intros [H1 <-]. split; [apply H1|]. now apply bext_fin.
  - intros [H1 H2]. now apply bext_finite.
Qed.
Lemma price_datum (m : Model) (x : @F (num m)) : price m x -> datum m x.
Proof. intros (r & H & _). now apply number_ext in H. Qed.
Lemma price_nan (m : Model) (x : @F (num m)) : price m x -> isNaN x = false.
Proof. intros (r & H & _). apply number_ext in H as [H1 H2]. now rewrite (rl_nan (rnd_laws m)), H2. Qed.
Lemma within_iff (m : Model) (x : @F (num m)) a b : within m a b x <-> datum m x /\ exists r, ext m x = Fin r /\ a <= r <= b.
Proof.
  split.
  - intros (r & H & Hr). apply number_ext in H as [H1 H2]. eauto.
  - intros (H1 & r & H2 & H3). exists r. split; [apply number_ext; auto|exact H3].
Qed.
Lemma pows_fb (xs : list R) : exists B, 0 < B /\ Forall (fun r => Rabs r <= B) xs.
Proof.
  induction xs as [|x xs (B & HB & IH)]; [exists 1; split; [lra|constructor]|].
  exists (B + Rabs x). pose proof (Rabs_pos x). split; [lra|]. constructor; [lra|].
  eapply Forall_impl; [|exact IH]. cbn. intros; lra.
Qed.
Lemma scale_of (m : Model) (xs : list (@F (num m))) : Forall (price m) xs ->
  exists B, ScaleLaw B (rd m) /\ Forall (fb (datum m) (ext m) B (-1) 1) xs.
Proof.
  destruct m as [|L].
  - intros H. destruct (pows_fb (map (fun x => match x with Fin r => r | _ => 0 end) xs)) as (B & HB & HF). exists B. split; [now apply XR_scale|].
    rewrite Forall_map in HF. rewrite Forall_forall in *. intros x Hx. destruct (H x Hx) as (r & Hr & _). cbn in Hr. subst x.
    specialize (HF _ Hx). cbn in HF. split; [exact I|]. exists r. split; [reflexivity|]. apply Flocq.Core.Raux.Rabs_le_inv in HF. lra.
  - intros H. exists (2 ^ 960). split; [apply B64_scale; lia|]. eapply Forall_impl; [|exact H]. intros x (r & Hr & Hb).
    apply number_ext in Hr as [H1 H2]. split; [exact H1|]. exists r. split; [exact H2|]. apply Flocq.Core.Raux.Rabs_le_inv in Hb. lra.
Qed.
(** constants of the code *)
Lemma law14 (m : Model) : @flt (num m) (lit (-1) 100000000000000) (ofZ 0) = true /\ @flt (num m) (ofZ 0) (lit 1 100000000000000) = true.
Proof.
  destruct m as [|L]; [|split; vm_compute; reflexivity].
  split; cbn; apply Rltb_t; lra.
Qed.
Lemma law6 (m : Model) : @flt (num m) (ofZ 0) (lit 1 1000000) = true.
Proof. destruct m as [|L]; [|vm_compute; reflexivity]. cbn; apply Rltb_t; lra. Qed.
Lemma law23 (m : Model) : let s := @fadd (num m) (fmul (lit 2 3) (ofZ 100)) (fmul (lit 1 3) (ofZ 100)) in
  flt (ofZ 100) s = false /\ isNaN s = false.
Proof. destruct m as [|L]; [|split; vm_compute; reflexivity]. cbn. split; [apply Rltb_f; lra|reflexivity]. Qed.

(** a value that is not below 0, not above z and not NaN is a number in [0, z] *)
Lemma range_number (m : Model) (x : @F (num m)) z : (Z.abs z <= 2 ^ 53)%Z -> nng (datum m) (ext m) x -> ngt (ext m) x (ofZ z) -> ext m x <> NaN -> within m 0 (IZR z) x.
Proof.
  intros Hz [H1 H2] H3 H4. apply within_iff. split; [exact H1|]. unfold ngt in H3. rewrite (rl_Z (rnd_laws m)) in H3 by exact Hz.
  destruct (ext m x) as [r| | |]; cbn in H2, H3; try discriminate; try contradiction. apply Rltb_f in H2, H3. eauto.
Qed.
(** integers are prices *)
Lemma number_Z (m : Model) z : (Z.abs z <= 2 ^ 53)%Z -> number m (@ofZ (num m) z) (IZR z).
Proof. intros Hz. apply number_ext. split; [apply (al_Z (rl_A (rnd_laws m)))|now apply (rl_Z (rnd_laws m))]. Qed.
Lemma price_Z (m : Model) z : (Z.abs z <= 2 ^ 53)%Z -> price m (@ofZ (num m) z).
Proof.
  intros Hz. exists (IZR z). split; [now apply number_Z|]. destruct m; [exact I|]. rewrite <- abs_IZR.
  apply Rle_trans with (IZR (2 ^ 53)); [now apply IZR_le|]. replace (IZR (2 ^ 53)) with (2 ^ 53) by (cbn; lra). apply Rle_pow; [lra|lia].
Qed.
Lemma eq_datum (m : Model) (x y : @F (num m)) : (x ==~ y) = true -> datum m y -> datum m x /\ ext m x = ext m y.
Proof.
  destruct m as [|L]; cbn [num datum ext].
  - intros H _. split; [exact I|]. destruct x as [r| | |], y as [s| | |]; cbn in H; try discriminate; try reflexivity. destruct (Reqb_spec r s); [now subst|discriminate].
  - intros H V. change (SFeqb x y = true) in H.
    assert (b_isNaN x = false /\ b_isNaN y = false) as [N1 N2] by (destruct x as [[]|[]| |[] mx ex], y as [[]|[]| |[] my ey]; try discriminate; now split).
    apply SFeqb_key in H; auto.
    destruct x as [[]|[]| |[] mx ex], y as [[]|[]| |[] my ey]; cbn in H; try discriminate; try (split; [reflexivity|reflexivity]); injection H as H1 H2;
    [replace ex with ey by lia|subst ex]; subst my; split; try reflexivity; exact V.
Qed.
Lemma rd_neg (m : Model) r : rd m (- r) = xneg (rd m r).
Proof.
  destruct m as [|L]; [reflexivity|]. cbn [rd]. unfold brd, rnd. rewrite round_NE_opp, Rabs_Ropp.
  destruct (Rlt_bool _ huge) eqn:E; [reflexivity|].
  assert (r <> 0). { intros ->. rewrite round_0 in E by auto with typeclass_instances. rewrite Rabs_R0, Rlt_bool_true in E; [discriminate|]. apply huge_pos. }
  unfold Rlt_bool at 1 2. destruct (Rcompare_spec (- r) 0), (Rcompare_spec r 0); try lra; reflexivity.
Qed.
(** two numbers whose (rounded) difference is 0 are the same *)
Lemma sub_zero (m : Model) (x y : @F (num m)) a b : number m x a -> number m y b -> ext m (x -~ y) = Fin 0 -> a = b.
Proof.
  intros Hx Hy. pose proof (proj1 (number_ext m x a) Hx) as [Dx Ex]. pose proof (proj1 (number_ext m y b) Hy) as [Dy Ey].
  rewrite (rl_sub (rnd_laws m)) by assumption. rewrite Ex, Ey. change (xsub (Fin a) (Fin b)) with (Fin (a - b)). cbn [rdx].
  destruct m as [|L]; cbn [rd]; intros E; [injection E; lra|]. unfold brd in E. destruct (Rlt_bool _ _); [|destruct (Rlt_bool _ _); discriminate].
  injection E as E. destruct (Req_dec (a - b) 0) as [|Hn]; [lra|]. exfalso. revert E. unfold rnd, Rminus.
  assert (P : Prec_gt_0 53) by reflexivity. change (SpecFloat.fexp 53 1024) with (FLT_exp (-1074) 53).
  assert (FM : forall z, fin z -> generic_format radix2 (FLT_exp (-1074) 53) (val z)).
  { intros z F. rewrite <- (rnd_val F). unfold rnd. change (SpecFloat.fexp 53 1024) with (FLT_exp (-1074) 53). apply generic_format_round; typeclasses eauto. }
  apply round_plus_neq_0; try typeclasses eauto; [| |exact Hn].
  - destruct Hx as [F <-]. now apply FM.
  - destruct Hy as [F <-]. apply generic_format_opp. now apply FM.
Qed.
