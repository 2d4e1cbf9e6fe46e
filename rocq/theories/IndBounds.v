(** * IndBounds: range lemmas for KDJ, Williams %R, stochastics, bands and channels,
    in exact arithmetic and float64 ([Model], SpecNum.v). *)
From Coq Require Import Reals Lra ZArith Lia Bool List.
From Verif Require Import Base Num XReal Order FloatLaws FloatOrder FloatBounds SpecNum SpecTa RSum Ta IndTrend IndForms IndForms2 IndForms3.
Import ListNotations.
Set Implicit Arguments.

Section R.
Variable m : Model.
Local Instance NumM : Num := num m.
Let RL := rnd_laws m.
Let A := rl_A RL.
Local Notation okv := (datum m).
Local Notation ex := (ext m).
Local Notation nng := (nng (datum m) (ext m)).
Local Notation ngt := (ngt (ext m)).
Local Notation fb := (fb (datum m) (ext m)).

Definition goodv (x : F) : Prop := okv x /\ ex x <> NaN.
Lemma goodv_nan x : okv x -> isNaN x = false -> goodv x.
Proof. intros H1 H2. split; [exact H1|]. rewrite (rl_nan RL) in H2. destruct (ex x); congruence. Qed.

(** ** lowest and highest of a window *)
Lemma lowF_spec f s k : (forall j, (j <= k)%nat -> goodv (f (s + j)%nat)) ->
  goodv (lowF f s k) /\ (forall j, (j <= k)%nat -> ngt (lowF f s k) (f (s + j)%nat)) /\ exists j, (j <= k)%nat /\ lowF f s k = f (s + j)%nat.
Proof.
  induction k as [|k IH]; intros Hf.
  - cbn [lowF]. replace (f s) with (f (s + 0)%nat) by (f_equal; lia). split; [apply Hf; lia|]. split; [|exists O; split; [lia|reflexivity]].
    intros j Hj. replace j with O by lia. apply ngt_refl.
  - destruct IH as (I1 & I2 & I3); [intros; apply Hf; lia|]. cbn [lowF]. pose proof (Hf (S k)) as HS. destruct HS as [HS1 HS2]; [lia|].
    destruct (f (s + S k)%nat <~ lowF f s k) eqn:E.
    + split; [now split|]. split; [|exists (S k); split; [lia|reflexivity]].
      intros j Hj. destruct (Nat.eq_dec j (S k)) as [->|Hne]; [apply ngt_refl|].
      apply ngt_trans with (lowF f s k); [apply I1| |apply I2; lia].
      unfold FloatBounds.ngt. rewrite (rl_lt RL) in E by (try assumption; apply I1).
      destruct (ex (f (s + S k)%nat)) as [r| | |], (ex (lowF f s k)) as [t| | |]; cbn in *; try reflexivity; try discriminate. apply Rltb_t in E. apply Rltb_f. lra.
    + split; [exact I1|]. split; [|destruct I3 as (j & Hj & Ej); exists j; split; [lia|exact Ej]].
      intros j Hj. destruct (Nat.eq_dec j (S k)) as [->|Hne]; [|apply I2; lia].
      apply (ngt_lt RL); [apply I1|exact HS1|exact E].
Qed.
Lemma highF_spec f s k : (forall j, (j <= k)%nat -> goodv (f (s + j)%nat)) ->
  goodv (highF f s k) /\ (forall j, (j <= k)%nat -> ngt (f (s + j)%nat) (highF f s k)) /\ exists j, (j <= k)%nat /\ highF f s k = f (s + j)%nat.
Proof.
  induction k as [|k IH]; intros Hf.
  - cbn [highF]. replace (f s) with (f (s + 0)%nat) by (f_equal; lia). split; [apply Hf; lia|]. split; [|exists O; split; [lia|reflexivity]].
    intros j Hj. replace j with O by lia. apply ngt_refl.
  - destruct IH as (I1 & I2 & I3); [intros; apply Hf; lia|]. cbn [highF]. pose proof (Hf (S k)) as HS. destruct HS as [HS1 HS2]; [lia|].
    destruct (highF f s k <~ f (s + S k)%nat) eqn:E.
    + split; [now split|]. split; [|exists (S k); split; [lia|reflexivity]].
      intros j Hj. destruct (Nat.eq_dec j (S k)) as [->|Hne]; [apply ngt_refl|].
      apply ngt_trans with (highF f s k); [apply I1|apply I2; lia|].
      unfold FloatBounds.ngt. rewrite (rl_lt RL) in E by (try assumption; apply I1).
      destruct (ex (f (s + S k)%nat)) as [r| | |], (ex (highF f s k)) as [t| | |]; cbn in *; try reflexivity; try discriminate. apply Rltb_t in E. apply Rltb_f. lra.
    + split; [exact I1|]. split; [|destruct I3 as (j & Hj & Ej); exists j; split; [lia|exact Ej]].
      intros j Hj. destruct (Nat.eq_dec j (S k)) as [->|Hne]; [|apply I2; lia].
      apply (ngt_lt RL); [exact HS1|apply I1|exact E].
Qed.

Lemma tab_In T n (g : nat -> T) x : In x (tab n g) <-> exists k, (k < n)%nat /\ g k = x.
Proof.
  unfold tab. rewrite in_map_iff. split.
  - intros (k & E & Hk). apply in_seq in Hk. exists k. split; [lia|exact E].
  - intros (k & Hk & E). exists k. split; [exact E|]. apply in_seq. lia.
Qed.
Lemma good_nn x : goodv x -> isNaN x = false.
Proof. intros [_ H]. rewrite (rl_nan RL). now destruct (ex x). Qed.
Lemma eq_refl_nn x : goodv x -> (x ==~ x) = true.
Proof.
  intros G. pose proof (good_nn G) as Hn. rewrite (ol_eq (ord_laws m)) by assumption. rewrite !(rl_lt RL) by apply G.
  destruct (ex x) as [r| | |]; cbn; try reflexivity. assert (E : Rltb r r = false) by (apply Rltb_f; lra). now rewrite E.
Qed.
Lemma lowF_min f s k : (forall j, (j <= k)%nat -> goodv (f (s + j)%nat)) -> min_of (lowF f s k) (tab (S k) (fun j => f (s + j)%nat)).
Proof.
  intros G. destruct (@lowF_spec f s k G) as (G1 & G2 & j & Hj & E). split.
  - exists (lowF f s k). split; [|now apply eq_refl_nn]. rewrite E at 1. apply tab_In. exists j. split; [lia|reflexivity].
  - intros x Hx. apply tab_In in Hx as (i & Hi & <-). rewrite (ol_le (ord_laws m)) by (apply good_nn; auto; apply G; lia).
    assert (Q : (f (s + i)%nat <~ lowF f s k) = false) by (apply (ngt_lt RL); [apply G1|apply G; lia|apply G2; lia]). apply negb_true_iff. exact Q.
Qed.
Lemma highF_max f s k : (forall j, (j <= k)%nat -> goodv (f (s + j)%nat)) -> max_of (highF f s k) (tab (S k) (fun j => f (s + j)%nat)).
Proof.
  intros G. destruct (@highF_spec f s k G) as (G1 & G2 & j & Hj & E). split.
  - exists (highF f s k). split; [|now apply eq_refl_nn]. rewrite E at 1. apply tab_In. exists j. split; [lia|reflexivity].
  - intros x Hx. apply tab_In in Hx as (i & Hi & <-). rewrite (ol_le (ord_laws m)) by (apply good_nn; auto; apply G; lia).
    assert (Q : (highF f s k <~ f (s + i)%nat) = false) by (apply (ngt_lt RL); [apply G; lia|apply G1|apply G2; lia]). apply negb_true_iff. exact Q.
Qed.

(** ** A position inside a range, as a percentage: a <= c <= b *)
Lemma position a b c : goodv a -> goodv b -> goodv c -> ngt a c -> ngt c b ->
  nng (c -~ a) /\ nng (b -~ c) /\ nng (b -~ a) /\ (b -~ a <~ c -~ a) = false /\ (b -~ a <~ b -~ c) = false.
Proof.
  intros [Ha Na] [Hb Nb] [Hc Nc] H1 H2. assert (H3 : ngt a b) by (now apply ngt_trans with c).
  assert (S : forall x y, okv x -> okv y -> ngt y x -> nng (x -~ y)) by (intros; apply (nng_sub RL); auto; now apply (ngt_lt RL)).
  repeat split; try apply (al_sub A); auto; try (now apply S).
  - apply (ngt_lt RL); try (apply (al_sub A); assumption). apply (ngt_sub RL); auto. apply ngt_refl.
  - apply (ngt_lt RL); try (apply (al_sub A); assumption). apply (ngt_sub RL); auto. apply ngt_refl.
Qed.
Lemma pct_bounds x d : nng x -> nng d -> (d <~ x) = false -> ex d <> Fin 0 -> nng (x /~ d *~ ofZ 100) /\ ngt (x /~ d *~ ofZ 100) (ofZ 100).
Proof.
  intros Hx Hd H H0. pose proof (nng_div RL Hx Hd H0) as Q. split; [apply (nng_mul RL); [exact Q|apply (nng_Z RL); lia]|].
  apply (ngt_lt RL); [apply (al_mul A); [apply Q|apply (al_Z A)]|apply (al_Z A)|]. apply (scale_le RL); [lia|exact Q|]. now apply (share_le1 RL).
Qed.
Lemma not_nan_add x y r s : okv x -> okv y -> ex x = Fin r -> ex y = Fin s -> ex (x +~ y) <> NaN.
Proof. intros H1 H2 E1 E2. rewrite (rl_add RL) by assumption. rewrite E1, E2. apply (rd_nn RL). Qed.
Lemma not_nan_mul x y r s : okv x -> okv y -> ex x = Fin r -> ex y = Fin s -> ex (x *~ y) <> NaN.
Proof. intros H1 H2 E1 E2. rewrite (rl_mul RL) by assumption. rewrite E1, E2. apply (rd_nn RL). Qed.
Lemma not_nan_div x y r s : okv x -> okv y -> ex x = Fin r -> ex y = Fin s -> s <> 0%R -> ex (x /~ y) <> NaN.
Proof.
  intros H1 H2 E1 E2 Hs. rewrite (rl_div RL); [|assumption..|rewrite E2; congruence]. rewrite E1, E2. cbn [xdiv].
  destruct (Reqb_spec s 0); [contradiction|]. apply (rd_nn RL).
Qed.
Lemma nng_fin x z : nng x -> ngt x (ofZ z) -> (Z.abs z <= 2 ^ 53)%Z -> ex x <> NaN -> exists r, ex x = Fin r.
Proof.
  intros [_ H1] H2 Hz H3. unfold FloatBounds.ngt in H2. rewrite (rl_Z RL) in H2 by exact Hz. destruct (ex x) as [r| | |]; cbn in *; try discriminate; try contradiction. eauto.
Qed.
Lemma pct_num B x d : ScaleLaw B (rd m) -> fb B (-2) 2 x -> fb B (-2) 2 d -> nng x -> nng d -> (d <~ x) = false -> ex d <> Fin 0 -> ex (x /~ d *~ ofZ 100) <> NaN.
Proof.
  intros SL (X1 & r & X2 & X3) (D1 & s & D2 & D3) Hx Hd H H0.
  assert (Q : ex (x /~ d) <> NaN) by (eapply not_nan_div; eauto; intros ->; now rewrite D2 in H0).
  pose proof (nng_div RL Hx Hd H0) as Hq. pose proof (share_le1 RL Hx Hd H H0) as H1.
  destruct (@nng_fin (x /~ d) 1) as [q Eq]; auto; [apply (ngt_lt RL); [apply Hq|apply (al_Z A)|exact H1]|lia|].
  eapply not_nan_mul; [apply Hq|apply (al_Z A)|exact Eq|apply (rl_Z RL); lia].
Qed.

(** ** KDJ *)
Variable p : nat.
Hypothesis Hp : (2 <= p)%nat.
Variables lo hi cl : nat -> F.
Section K.
Variable n : nat.
Hypothesis G : forall i, (i < n)%nat -> goodv (lo i) /\ goodv (hi i) /\ goodv (cl i) /\ ngt (lo i) (cl i) /\ ngt (cl i) (hi i).
Lemma rsv_parts i : (p - 1 <= i < n)%nat -> let a := lowF lo (i - (p - 1)) (p - 1) in let b := highF hi (i - (p - 1)) (p - 1) in
  goodv a /\ goodv b /\ ngt a (cl i) /\ ngt (cl i) b.
Proof.
  intros Hi a b. destruct (@lowF_spec lo (i - (p - 1)) (p - 1)) as (A1 & A2 & _); [intros; apply G; lia|].
  destruct (@highF_spec hi (i - (p - 1)) (p - 1)) as (B1 & B2 & _); [intros; apply G; lia|].
  destruct (G (i := i)) as (G1 & G2 & G3 & G4 & G5); [lia|].
  split; [exact A1|]. split; [exact B1|]. specialize (A2 (p - 1)%nat). specialize (B2 (p - 1)%nat).
  replace (i - (p - 1) + (p - 1))%nat with i in * by lia. split.
  - apply ngt_trans with (lo i); [apply G1|apply A2; lia|exact G4].
  - apply ngt_trans with (hi i); [apply G2|exact G5|apply B2; lia].
Qed.
Lemma lit6_ne d : okv d -> (d <~ lit 1 1000000) = false -> ex d <> Fin 0.
Proof.
  intros Hd H E. pose proof (law6 m) as H6. rewrite (rl_lt RL) in H, H6 by (try apply (al_lit A); try apply (al_Z A); auto).
  rewrite (rl_Z RL) in H6 by lia. rewrite E in H. cbn [IZR] in H6. rewrite H6 in H. discriminate.
Qed.
Lemma rsvF_bounds i : (p - 1 <= i < n)%nat -> nng (rsvF p lo hi cl i) /\ ngt (rsvF p lo hi cl i) (ofZ 100).
Proof.
  intros Hi. destruct (rsv_parts Hi) as (A1 & B1 & H1 & H2). unfold rsvF.
  set (a := lowF lo (i - (p - 1)) (p - 1)) in *. set (b := highF hi (i - (p - 1)) (p - 1)) in *.
  destruct (G (i := i)) as (_ & _ & G3 & _); [lia|].
  destruct (position A1 B1 G3 H1 H2) as (P1 & P2 & P3 & P4 & P5).
  destruct (b -~ a <~ lit 1 1000000) eqn:E.
  - split; [apply (nng_Z RL); lia|apply ngt_refl].
  - apply pct_bounds; auto. apply lit6_ne; [apply P3|exact E].
Qed.
Lemma third_bounds x y : nng x -> ngt x (ofZ 100) -> nng y -> ngt y (ofZ 100) ->
  nng (lit 2 3 *~ x +~ lit 1 3 *~ y) /\ ngt (lit 2 3 *~ x +~ lit 1 3 *~ y) (ofZ 100).
Proof.
  intros Hx Bx Hy By. assert (L2 : nng (lit 2 3)) by (apply (nng_lit RL); lia). assert (L1 : nng (lit 1 3)) by (apply (nng_lit RL); lia).
  split; [apply (nng_add RL); apply (nng_mul RL); assumption|].
  pose proof (law23 m) as [C1 C2]. cbv zeta in C1, C2.
  assert (O : forall a b, nng a -> okv b -> okv (a *~ b)) by (intros a b [Ha _] Hb; now apply (al_mul A)).
  pose proof (al_Z A 100) as O100.
  apply ngt_trans with (lit 2 3 *~ ofZ 100 +~ lit 1 3 *~ ofZ 100).
  - rewrite (rl_nan RL) in C2. intros E. rewrite E in C2. discriminate.
  - apply (ngt_add RL); try (apply O; auto; apply Hx || apply Hy).
    + apply (ngt_mul_l RL); auto. apply Hx.
    + apply (ngt_mul_l RL); auto. apply Hy.
  - apply (ngt_lt RL); [apply (al_add A); apply O; auto|exact O100|exact C1].
Qed.
Definition ok100 (x : F) := nng x /\ ngt x (ofZ 100).
Lemma ok100_Z z : (0 <= z <= 100)%Z -> ok100 (ofZ z).
Proof. intros Hz. split; [apply (nng_Z RL); lia|]. unfold FloatBounds.ngt. rewrite !(rl_Z RL) by lia. cbn. apply Rltb_f. apply IZR_le. lia. Qed.
Lemma kdjF_bounds i : (i < n)%nat -> let '(r, k, d) := kdjF p lo hi cl i in ok100 r /\ ok100 k /\ ok100 d.
Proof.
  induction i as [|i IH]; intros Hi; cbn [kdjF]; [repeat split; apply ok100_Z; lia|].
  destruct (Nat.ltb_spec (S i) (p - 1)); [repeat split; apply ok100_Z; lia|].
  specialize (IH ltac:(lia)). destruct (kdjF p lo hi cl i) as [[r k] d]. destruct IH as (_ & [K1 K2] & [D1 D2]).
  destruct (@rsvF_bounds (S i)) as [R1 R2]; [lia|]. split; [now split|].
  destruct (third_bounds K1 K2 R1 R2) as [K3 K4]. split; [now split|]. exact (third_bounds D1 D2 K3 K4).
Qed.
(** with prices of moderate size the values are numbers *)
Variable B : R.
Hypothesis SL : ScaleLaw B (rd m).
Hypothesis GB : forall i, (i < n)%nat -> fb B (-1) 1 (lo i) /\ fb B (-1) 1 (hi i) /\ fb B (-1) 1 (cl i).
Lemma diff_fb x y : fb B (-1) 1 x -> fb B (-1) 1 y -> fb B (-2) 2 (x -~ y).
Proof. intros Hx Hy. change (-2)%Z with (-1 - 1)%Z. change 2%Z with (1 - -1)%Z. now apply (fb_sub RL SL). Qed.
Lemma rsvF_num i : (p - 1 <= i < n)%nat -> ex (rsvF p lo hi cl i) <> NaN.
Proof.
  intros Hi. destruct (rsv_parts Hi) as (A1 & B1 & H1 & H2). unfold rsvF.
  assert (FA : fb B (-1) 1 (lowF lo (i - (p - 1)) (p - 1))).
  { destruct (@lowF_spec lo (i - (p - 1)) (p - 1)) as (_ & _ & j & Hj & E); [intros; apply G; lia|]. rewrite E. apply GB. lia. }
  assert (FB : fb B (-1) 1 (highF hi (i - (p - 1)) (p - 1))).
  { destruct (@highF_spec hi (i - (p - 1)) (p - 1)) as (_ & _ & j & Hj & E); [intros; apply G; lia|]. rewrite E. apply GB. lia. }
  set (a := lowF lo (i - (p - 1)) (p - 1)) in *. set (b := highF hi (i - (p - 1)) (p - 1)) in *.
  destruct (G (i := i)) as (_ & _ & G3 & _); [lia|]. destruct (GB (i := i)) as (_ & _ & FC); [lia|].
  destruct (position A1 B1 G3 H1 H2) as (P1 & P2 & P3 & P4 & P5).
  destruct (b -~ a <~ lit 1 1000000) eqn:E.
  - rewrite (rl_Z RL) by lia. discriminate.
  - apply pct_num with B; auto using diff_fb. apply lit6_ne; [apply P3|exact E].
Qed.
Lemma third_num x y : ok100 x -> ok100 y -> ex x <> NaN -> ex y <> NaN -> ex (lit 2 3 *~ x +~ lit 1 3 *~ y) <> NaN.
Proof.
  intros [X1 X2] [Y1 Y2] Nx Ny. destruct (@nng_fin x 100 X1 X2 ltac:(lia) Nx) as [r Er], (@nng_fin y 100 Y1 Y2 ltac:(lia) Ny) as [s Es].
  assert (Q : forall q a, (0 < a <= 2)%Z -> nng q -> ngt q (ofZ 100) -> (exists r, ex q = Fin r) -> exists t, ex (lit a 3 *~ q) = Fin t).
  { intros q a Ha Hq Bq [t Et]. assert (La : exists l, ex (lit a 3) = Fin l /\ (0 <= l <= 1)%R).
    { rewrite (rl_lit RL) by lia. destruct (@rd_between _ _ _ _ RL 1%R (scale_1 RL) (IZR a / 3)%R 0 1) as (l & L1 & L2); [lia|lia|..|exists l; split; [exact L1|lra]].
      destruct (Z.eq_dec a 1) as [->|]; [lra|]. replace a with 2%Z by lia. lra. }
    destruct La as (l & L1 & L2). rewrite (rl_mul RL); [|apply (al_lit A)|apply Hq]. rewrite L1, Et. cbn [xmul rdx].
    destruct Hq as [_ Hq]. unfold FloatBounds.ngt in Bq. rewrite (rl_Z RL) in Bq by lia. rewrite Et in Hq, Bq. cbn in Hq, Bq. apply Rltb_f in Hq, Bq.
    destruct (@rd_between _ _ _ _ RL 1%R (scale_1 RL) (l * t)%R 0 100) as (u & U1 & U2); [lia|lia|nra|]. eauto. }
  destruct (Q x 2%Z ltac:(lia) X1 X2) as [u Eu]; [eauto|]. destruct (Q y 1%Z ltac:(lia) Y1 Y2) as [v Ev]; [eauto|].
  eapply not_nan_add; [| |exact Eu|exact Ev]; (apply (al_mul A); [apply (al_lit A)|apply X1 || apply Y1]).
Qed.
Lemma kdjF_num i : (i < n)%nat -> let '(r, k, d) := kdjF p lo hi cl i in ex r <> NaN /\ ex k <> NaN /\ ex d <> NaN.
Proof.
  assert (Z0 : forall z, (0 <= z <= 100)%Z -> ex (ofZ z) <> NaN) by (intros z Hz; rewrite (rl_Z RL) by lia; discriminate).
  induction i as [|i IH]; intros Hi; pose proof (kdjF_bounds Hi) as BN; cbn [kdjF] in *; [repeat split; apply Z0; lia|].
  destruct (Nat.ltb_spec (S i) (p - 1)); [repeat split; apply Z0; lia|].
  assert (Hi' : (i < n)%nat) by lia. pose proof (kdjF_bounds Hi') as BN'.
  specialize (IH ltac:(lia)). destruct (kdjF p lo hi cl i) as [[r k] d]. destruct IH as (_ & NK & ND), BN as (R1 & K1 & D1), BN' as (_ & K2 & D2).
  pose proof (@rsvF_num (S i) ltac:(lia)) as NR. split; [exact NR|].
  pose proof (third_num K2 R1 NK NR) as NK'. split; [exact NK'|]. exact (third_num D2 K1 ND NK').
Qed.
End K.
End R.
