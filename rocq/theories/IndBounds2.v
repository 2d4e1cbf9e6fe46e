(** * IndBounds2: moving averages, true range and channels in both models. *)
From Coq Require Import Reals Lra ZArith Lia Bool List.
From Verif Require Import Base Num XReal Order OrderMore FloatLaws FloatOrder FloatBounds SpecNum SpecTa RSum Ta TaAvg TaRange Klines IndBase IndTrend IndChannel IndOsc
  IndForms IndForms2 IndForms3 IndForms4 IndBounds.
Import ListNotations.
Set Implicit Arguments.

Section R.
Variable m : Model.
Local Instance NumM : Num := num m.
Let RL := rnd_laws m.
Let A := rl_A RL.
Local Notation okv := (datum m).
Local Notation ex := (ext m).
Local Notation nng := (nng (datum m) (ext m)).
Local Notation ngt := (ngt (ext m)).
Local Notation fb := (fb (datum m) (ext m)).
Local Notation goodv := (goodv m).

Lemma inf_laws : InfLaws (num m).
Proof. destruct m as [|L]; [exact XR_inf|exact (B64_inf L)]. Qed.

(** ** window maxima and minima *)
Lemma le_ngt x y : goodv x -> goodv y -> (x <=~ y) = true -> ngt x y.
Proof.
  intros Gx Gy H. rewrite (ol_le (ord_laws m)) in H by now apply good_nn. apply negb_true_iff in H.
  apply (ngt_lt RL); [apply Gx|apply Gy|exact H].
Qed.
Lemma max_facts M w : Forall goodv w -> max_of M w -> goodv M /\ (forall x, In x w -> ngt x M) /\ exists x, In x w /\ ex M = ex x.
Proof.
  intros G [(x & Hx & E) H]. rewrite Forall_forall in G. destruct (eq_datum m M x E (proj1 (G x Hx))) as [D1 D2].
  assert (GM : goodv M) by (split; [exact D1|rewrite D2; apply G; exact Hx]). split; [exact GM|]. split; [|eauto].
  intros y Hy. apply le_ngt; auto. 
Qed.
Lemma min_facts M w : Forall goodv w -> min_of M w -> goodv M /\ (forall x, In x w -> ngt M x) /\ exists x, In x w /\ ex M = ex x.
Proof.
  intros G [(x & Hx & E) H]. rewrite Forall_forall in G. destruct (eq_datum m M x E (proj1 (G x Hx))) as [D1 D2].
  assert (GM : goodv M) by (split; [exact D1|rewrite D2; apply G; exact Hx]). split; [exact GM|]. split; [|eauto].
  intros y Hy. apply le_ngt; auto.
Qed.
Lemma Forall_window T (P : T -> Prop) l i p : Forall P l -> Forall P (window l i p).
Proof. intros H. rewrite Forall_forall in *. intros x Hx. apply H. apply (window_In l i p x Hx). Qed.
Lemma in_window T (l : list T) i p x : (1 <= p)%nat -> nth_error l i = Some x -> In x (window l i p).
Proof.
  intros Hp E. assert (Hi : (i < length l)%nat) by (apply nth_error_Some; congruence). rewrite (@window_tab _ l i p x Hi). apply tab_In.
  exists (Nat.min (S i) p - 1)%nat. split; [lia|]. apply nth_error_nth. rewrite <- E. f_equal. lia.
Qed.

(** ** numbers between multiples of a scale *)
Section S.
Variable B : R.
Hypothesis SL : ScaleLaw B (rd m).
Lemma fb_mulZ_l lo hi x z : (0 <= z <= 2 ^ 53)%Z -> (Z.abs (lo * z) <= 2 ^ 53)%Z -> (Z.abs (hi * z) <= 2 ^ 53)%Z -> fb B lo hi x -> fb B (lo * z) (hi * z) (ofZ z *~ x).
Proof.
  intros Hz H1 H2 (X1 & r & X2 & X3). split; [apply (al_mul A); [apply (al_Z A)|exact X1]|].
  destruct (@fb_mulZ _ _ _ _ RL B SL lo hi x z Hz H1 H2) as (_ & t & T1 & T2); [split; eauto|]. exists t. split; [|exact T2].
  rewrite (rl_mul RL) in * by (try apply (al_Z A); assumption). rewrite X2, (rl_Z RL) in * by lia. cbn [xmul] in *. now rewrite Rmult_comm.
Qed.
Lemma fb_between lo hi x r : fb B lo hi x -> ex x = Fin r -> (IZR lo * B <= r <= IZR hi * B)%R.
Proof. intros (_ & s & E & Hs) E'. rewrite E in E'. injection E' as <-. exact Hs. Qed.
Lemma emaF_fb p lo hi f i : (1 <= p)%Z -> (Z.abs lo * (p + 1) <= 2 ^ 53)%Z -> (Z.abs hi * (p + 1) <= 2 ^ 53)%Z ->
  (2 * (p + 1) <= 2 ^ 53)%Z ->
  (forall j, (j <= i)%nat -> fb B lo hi (f j)) -> fb B lo hi (emaF p f i).
Proof.
  intros Hp H1 H2 H3. induction i as [|i IH]; intros Hf; cbn [emaF]; [apply Hf; lia|].
  assert (E1 : (lo * 2 + lo * (p - 1) = lo * (p + 1))%Z) by ring. assert (E2 : (hi * 2 + hi * (p - 1) = hi * (p + 1))%Z) by ring.
  apply (fb_divZ RL SL); [lia|lia|lia|]. rewrite <- E1, <- E2. apply (fb_add RL SL); [rewrite E1, Z.abs_mul; lia|rewrite E2, Z.abs_mul; lia|..].
  - apply fb_mulZ_l; [lia|rewrite Z.abs_mul; nia|rewrite Z.abs_mul; nia|]. apply Hf. lia.
  - apply fb_mulZ_l; [lia|rewrite Z.abs_mul; nia|rewrite Z.abs_mul; nia|]. apply IH. intros; apply Hf; lia.
Qed.
Lemma rmaS_fb p hi n f i : (1 <= p <= 2 ^ 53)%Z -> (0 <= hi)%Z -> (hi * p <= 2 ^ 53)%Z -> (i < n)%nat ->
  (forall j, (j <= i)%nat -> fb B 0 hi (f j)) ->
  fb B 0 hi (snd (rmaS p (tab n f) i)) /\ ((Z.of_nat i < p)%Z -> fb B 0 (hi * (Z.of_nat i + 1)) (fst (rmaS p (tab n f) i))).
Proof.
  intros Hp H0 H1 Hn. induction i as [|i IH]; intros Hf; cbn [rmaS].
  - cbn [fst snd]. split; [apply (fb_0 RL SL); lia|intros; apply (fb_0 RL SL); lia].
  - destruct IH as [I1 I2]; [lia|intros; apply Hf; lia|]. destruct (rmaS p (tab n f) i) as [s r]. cbn [fst snd] in *.
    rewrite tab_nth by exact Hn. destruct (Z.ltb_spec (Z.of_nat (S i)) p) as [Hlt|Hge]; cbn [fst snd].
    + specialize (I2 ltac:(lia)).
      assert (Hs : fb B 0 (hi * (Z.of_nat (S i) + 1)) (s +~ f (S i))).
      { replace 0%Z with (0 + 0)%Z by reflexivity. replace (hi * (Z.of_nat (S i) + 1))%Z with (hi * (Z.of_nat i + 1) + hi)%Z by lia.
        apply (fb_add RL SL); [lia|rewrite Z.abs_eq; nia|exact I2|apply Hf; lia]. }
      split; [|intros _; exact Hs]. apply (fb_divZ RL SL); [lia|lia|nia|]. rewrite Z.mul_0_l. exact Hs.
    + assert (Hs : fb B 0 (hi * p) (r *~ ofZ (p - 1) +~ f (S i))).
      { replace 0%Z with (0 * (p - 1) + 0)%Z by lia. replace (hi * p)%Z with (hi * (p - 1) + hi)%Z by lia.
        apply (fb_add RL SL); [lia|rewrite Z.abs_eq; nia|apply (fb_mulZ RL SL); try lia; [rewrite Z.abs_eq; nia|exact I1]|apply Hf; lia]. }
      split; [|lia]. apply (fb_divZ RL SL); [lia|lia|nia|]. rewrite Z.mul_0_l. exact Hs.
Qed.
Lemma fb_num lo hi x : fb B lo hi x -> exists r, number m x r /\ ex x = Fin r.
Proof. intros (H1 & r & H2 & _). exists r. split; [apply number_ext; auto|exact H2]. Qed.

(** true range: between 0 and twice the scale when low <= high *)
Lemma trF_fb (kl : list Candle) i : (i < length kl)%nat -> (forall j, (j < length kl)%nat -> fb B (-1) 1 (cHigh (cn kl j)) /\ fb B (-1) 1 (cLow (cn kl j)) /\ fb B (-1) 1 (cClose (cn kl j)) /\ ngt (cLow (cn kl j)) (cHigh (cn kl j))) ->
  fb B 0 2 (trF kl i).
Proof.
  intros Hi G. unfold trF. set (pc := match i with O => fzero | S j => cClose (cn kl j) end).
  assert (Hpc : fb B (-1) 1 pc) by (unfold pc; destruct i as [|j]; [apply (fb_0 RL SL); lia|apply G; lia]).
  destruct (G i Hi) as (G1 & G2 & G3 & G4).
  set (x := cHigh (cn kl i) -~ cLow (cn kl i)). set (y := cHigh (cn kl i) -~ pc). set (z := cLow (cn kl i) -~ pc).
  assert (X : fb B (-2) 2 x) by now apply diff_fb. assert (Y : fb B (-2) 2 y) by now apply diff_fb. assert (Z : fb B (-2) 2 z) by now apply diff_fb.
  assert (M : fb B (-2) 2 (fmax x (fmax y z))).
  { destruct (fmax_in x (fmax y z)) as [->| ->]; [exact X|]. destruct (fmax_in y z) as [->| ->]; assumption. }
  apply (fb_pos RL) with (-2)%Z; [exact M|].
  assert (Hx : nng x). { apply (nng_sub RL); [apply G1|apply G2|]. apply (ngt_lt RL); [apply G2|apply G1|exact G4]. }
  apply (nng_lt RL) in Hx. destruct Hx as [Hx0 Hx].
  pose proof (fmax_l (ord_laws m) inf_laws x (fmax y z)) as Q.
  assert (NX : isNaN x = false) by (rewrite (rl_nan RL); destruct X as (_ & rx & -> & _); reflexivity).
  assert (NM : isNaN (fmax x (fmax y z)) = false) by (rewrite (rl_nan RL); destruct M as (_ & rx & -> & _); reflexivity).
  apply (ol_ntrans (ord_laws m)) with x; try assumption. unfold nn. rewrite (rl_nan RL). rewrite (rl_Z RL) by lia. reflexivity.
Qed.
End S.
End R.
