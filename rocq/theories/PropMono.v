(** * PropMono: property C96, higher prices never lower an average or an extreme. *)
From Coq Require Import Reals Lra ZArith Lia Bool List PeanoNat.
From Verif Require Import Base Num XReal B64 Lits Order OrderMore TaRange FloatLaws FloatOrder FloatBounds SpecNum Ta TaTools TaOrd TaAvg TaStat SpecTa RSum IndForms SpecMono PropTa1 PropFloat.
Import ListNotations.
Set Implicit Arguments.
Open Scope Z_scope.

Lemma na_length (N : Num) (xs ys : list F) : nowhere_above xs ys -> length xs = length ys.
Proof. intros H. induction H; cbn; congruence. Qed.
Lemma na_nth (N : Num) (xs ys : list F) i d : nowhere_above xs ys -> (i < length xs)%nat -> (nth i ys d <~ nth i xs d) = false.
Proof. intros H. revert i. induction H as [|x y xs ys Hxy H IH]; intros [|i] Hi; cbn in *; try lia; auto. apply IH. lia. Qed.
Lemma na_tab (N : Num) n (f g : nat -> F) : (forall i, (i < n)%nat -> (g i <~ f i) = false) -> nowhere_above (tab n f) (tab n g).
Proof.
  unfold nowhere_above, tab. intros H. assert (Q : forall l, (forall i, In i l -> (i < n)%nat) -> Forall2 (fun x y => (y <~ x) = false) (map f l) (map g l)).
  { induction l as [|i l IH]; intros Hl; [constructor|]. cbn. constructor; [apply H, Hl; now left|apply IH; intros; apply Hl; now right]. }
  apply Q. intros i Hi. apply in_seq in Hi. lia.
Qed.
Lemma na_skipn (N : Num) k (xs ys : list F) : nowhere_above xs ys -> nowhere_above (skipn k xs) (skipn k ys).
Proof. intros H. revert k. induction H; intros [|k]; cbn; try constructor; auto; apply IHForall2. Qed.
Lemma na_firstn (N : Num) k (xs ys : list F) : nowhere_above xs ys -> nowhere_above (firstn k xs) (firstn k ys).
Proof. intros H. revert k. induction H; intros [|k]; cbn; try constructor; auto; apply IHForall2. Qed.
Lemma na_window (N : Num) i k (xs ys : list F) : nowhere_above xs ys -> nowhere_above (window xs i k) (window ys i k).
Proof. intros H. unfold window. now apply na_skipn, na_firstn. Qed.
Lemma na_In (N : Num) (xs ys : list F) y : nowhere_above xs ys -> In y ys -> exists x, In x xs /\ (y <~ x) = false.
Proof. intros H. induction H as [|a b xs ys Hab H IH]; [intros []|]. intros [->|Hy]; [exists a; split; [now left|exact Hab]|]. destruct (IH Hy) as (x & Hx & E). exists x. split; [now right|exact E]. Qed.
Lemma na_In' (N : Num) (xs ys : list F) x : nowhere_above xs ys -> In x xs -> exists y, In y ys /\ (y <~ x) = false.
Proof. intros H. induction H as [|a b xs ys Hab H IH]; [intros []|]. intros [->|Hy]; [exists b; split; [now left|exact Hab]|]. destruct (IH Hy) as (y & Hx & E). exists y. split; [now right|exact E]. Qed.

Section O.
Context {N : Num}.
Hypothesis O : OrdLaws N.
Lemma eq_nn (x y : F) : (x ==~ y) = true -> isNaN x = false /\ isNaN y = false.
Proof. intros H. destruct (isNaN x) eqn:E1; [destruct (ol_lt_nan O x y) as (_ & _ & Q); [now left|congruence]|]. destruct (isNaN y) eqn:E2; [destruct (ol_lt_nan O x y) as (_ & _ & Q); [now right|congruence]|]. auto. Qed.
(** the maximum of the higher list is not below the maximum of the lower one *)
Lemma max_na xs ys a b : no_nan xs -> no_nan ys -> nowhere_above xs ys -> max_of a xs -> max_of b ys -> (b <~ a) = false.
Proof.
  intros Nx Ny H ((x & Hx & Ex) & _) ((z & Hz & Ez) & Hb). destruct (na_In' _ H Hx) as (y & Hy & E). specialize (Hb y Hy).
  destruct (eq_nn _ _ Ex) as [N1 N2]. destruct (eq_nn _ _ Ez) as [N3 N4]. assert (N5 : isNaN y = false) by (eapply Forall_forall in Ny; eauto).
  rewrite (ol_eq O) in Ex by assumption. apply andb_true_iff in Ex as [Ex1 Ex2]. apply negb_true_iff in Ex1, Ex2. rewrite (ol_le O) in Hb by assumption. apply negb_true_iff in Hb.
  apply (@ol_ntrans N O b y a); auto. apply (@ol_ntrans N O y x a); auto.
Qed.
Lemma min_na xs ys a b : no_nan xs -> no_nan ys -> nowhere_above xs ys -> min_of a xs -> min_of b ys -> (b <~ a) = false.
Proof.
  intros Nx Ny H ((z & Hz & Ez) & Ha) ((y & Hy & Ey) & _). destruct (na_In _ H Hy) as (x & Hx & E). specialize (Ha x Hx).
  destruct (eq_nn _ _ Ey) as [N1 N2]. destruct (eq_nn _ _ Ez) as [N3 N4]. assert (N5 : isNaN x = false) by (eapply Forall_forall in Nx; eauto).
  rewrite (ol_eq O) in Ey by assumption. apply andb_true_iff in Ey as [Ey1 Ey2]. apply negb_true_iff in Ey1, Ey2. rewrite (ol_le O) in Ha by assumption. apply negb_true_iff in Ha.
  apply (@ol_ntrans N O b y a); auto. apply (@ol_ntrans N O y x a); auto.
Qed.
End O.
Lemma nn_window (N : Num) (xs : list F) i k : no_nan xs -> no_nan (window xs i k).
Proof. intros H. unfold no_nan in *. rewrite Forall_forall in *. intros x Hx. apply H. eapply window_In; eauto. Qed.
Lemma nn_skipn (N : Num) (xs : list F) k : no_nan xs -> no_nan (skipn k xs).
Proof. intros H. unfold no_nan in *. rewrite Forall_forall in *. intros x Hx. apply H. rewrite <- (firstn_skipn k xs). apply in_or_app. now right. Qed.

(** ** Moving and overall extremes, in exact and in float64 arithmetic *)
Theorem C96_Max_Min (m : Model) (p : nat) : (1 <= p)%nat ->
  rises_with (N := num m) no_nan (Max (Z.of_nat p)) /\ rises_with (N := num m) no_nan (Min (Z.of_nat p)).
Proof.
  intros Hp. split; intros xs ys Nx Ny H.
  - destruct (@Max_spec _ (ord_laws m) p xs Hp Nx) as (rx & Ex & Lx & Mx). destruct (@Max_spec _ (ord_laws m) p ys Hp Ny) as (ry & Ey & Ly & My).
    exists rx, ry. split; [exact Ex|]. split; [exact Ey|]. pose proof (na_length H) as L. rewrite (tab_of_list rx fzero), (tab_of_list ry fzero), Ly, <- L, <- Lx.
    apply na_tab. intros i Hi. eapply (max_na (ord_laws m)); [| | |apply Mx; lia|apply My; lia]; [now apply nn_window|now apply nn_window|now apply na_window].
  - destruct (@Min_spec _ (ord_laws m) p xs Hp Nx) as (rx & Ex & Lx & Mx). destruct (@Min_spec _ (ord_laws m) p ys Hp Ny) as (ry & Ey & Ly & My).
    exists rx, ry. split; [exact Ex|]. split; [exact Ey|]. pose proof (na_length H) as L. rewrite (tab_of_list rx fzero), (tab_of_list ry fzero), Ly, <- L, <- Lx.
    apply na_tab. intros i Hi. eapply (min_na (ord_laws m)); [| | |apply Mx; lia|apply My; lia]; [now apply nn_window|now apply nn_window|now apply na_window].
Qed.
Print Assumptions C96_Max_Min.
Theorem C96_Highest_Lowest (m : Model) (n : Z) (xs ys : list (@F (num m))) : xs <> [] -> no_nan xs -> no_nan ys -> nowhere_above xs ys ->
  exists a b c d, Highest xs n = Ok a /\ Highest ys n = Ok b /\ (b <~ a) = false /\ Lowest xs n = Ok c /\ Lowest ys n = Ok d /\ (d <~ c) = false.
Proof.
  intros H0 Nx Ny H. assert (H1 : ys <> []) by (intros ->; apply na_length in H; destruct xs; cbn in H; congruence).
  destruct (@Highest_spec _ (ord_laws m) xs n H0 Nx) as (a & Ea & Ma). destruct (@Highest_spec _ (ord_laws m) ys n H1 Ny) as (b & Eb & Mb).
  destruct (@Lowest_spec _ (ord_laws m) xs n H0 Nx) as (c & Ec & Mc). destruct (@Lowest_spec _ (ord_laws m) ys n H1 Ny) as (d & Ed & Md).
  exists a, b, c, d. unfold lastn in *. rewrite <- (na_length H) in Mb, Md.
  repeat split; auto; [eapply (max_na (ord_laws m)); [| | |exact Ma|exact Mb]|eapply (min_na (ord_laws m)); [| | |exact Mc|exact Md]]; try (now apply nn_skipn); now apply na_skipn.
Qed.
Print Assumptions C96_Highest_Lowest.

(** ** Recursive averages, in exact and in float64 arithmetic, whatever the data (infinities and NaN included) *)
Section Rec.
Variable m : Model.
Let RL := rnd_laws m.
Let A := rl_A RL.
Local Notation ngt := (ngt (ext m)).
Lemma nngZ z : 0 <= z <= 2 ^ 53 -> nng (datum m) (ext m) (ofZ z).
Proof. intros Hz. now apply (nng_Z RL). Qed.
Lemma neZ z : 0 < z <= 2 ^ 53 -> ext m (ofZ z) <> Fin 0.
Proof. intros Hz. now apply (pos_ne RL). Qed.
Lemma dat_nth xs i : Forall (datum m) xs -> datum m (nth i xs fzero).
Proof. intros H. destruct (Nat.lt_ge_cases i (length xs)) as [Hi|Hi]; [rewrite Forall_forall in H; apply H, nth_In, Hi|rewrite nth_overflow by exact Hi; apply (al_Z A)]. Qed.
Lemma ngt_nth xs ys i : Forall (datum m) xs -> Forall (datum m) ys -> nowhere_above xs ys -> ngt (nth i xs fzero) (nth i ys fzero).
Proof.
  intros Dx Dy H. apply (ngt_lt RL); [now apply dat_nth|now apply dat_nth|]. destruct (Nat.lt_ge_cases i (length xs)) as [Hi|Hi]; [now apply na_nth|].
  rewrite !nth_overflow by (rewrite <- ?(na_length H); exact Hi). change (@fzero (num m)) with (@ofZ (num m) 0). rewrite (rl_lt RL) by apply (al_Z A). rewrite (rl_Z RL) by lia. cbn. unfold Rltb. destruct (Rlt_dec 0 0); [lra|reflexivity].
Qed.
Lemma emaS_mono p xs ys i : 1 <= p < 2 ^ 53 -> Forall (datum m) xs -> Forall (datum m) ys -> nowhere_above xs ys ->
  datum m (emaS p xs i) /\ datum m (emaS p ys i) /\ ngt (emaS p xs i) (emaS p ys i).
Proof.
  intros Hp Dx Dy H. induction i as [|i (I1 & I2 & IH)]; cbn [emaS].
  { repeat split; [now apply dat_nth|now apply dat_nth|now apply ngt_nth]. }
  assert (Q : forall xs, Forall (datum m) xs -> datum m (emaS p xs i) -> datum m (ofZ 2 *~ nth (S i) xs fzero +~ ofZ (p - 1) *~ emaS p xs i)).
  { intros zs Dz Iz. apply (al_add A); apply (al_mul A); try apply (al_Z A); auto. now apply dat_nth. }
  split; [apply (al_div A); [now apply Q|apply (al_Z A)]|]. split; [apply (al_div A); [now apply Q|apply (al_Z A)]|].
  apply (ngt_div RL); [apply nngZ; lia|apply neZ; lia|now apply Q|now apply Q|].
  apply (ngt_add RL); try (apply (al_mul A); try apply (al_Z A); try assumption; now apply dat_nth).
  - apply (ngt_mul_l RL); [apply nngZ; lia|now apply dat_nth|now apply dat_nth|now apply ngt_nth].
  - apply (ngt_mul_l RL); [apply nngZ; lia|assumption|assumption|assumption].
Qed.
Theorem C96_Ema p : 1 <= p < 2 ^ 53 -> rises_with (Forall (datum m)) (Ema p).
Proof.
  intros Hp xs ys Dx Dy H. rewrite !Ema_gen. eexists _, _. split; [reflexivity|]. split; [reflexivity|]. rewrite <- (na_length H). apply na_tab. intros i _.
  destruct (@emaS_mono p xs ys i Hp Dx Dy H) as (I1 & I2 & I). now apply (ngt_lt RL).
Qed.
Lemma rmaS_mono p xs ys i : 1 <= p < 2 ^ 53 -> Forall (datum m) xs -> Forall (datum m) ys -> nowhere_above xs ys ->
  datum m (fst (rmaS p xs i)) /\ datum m (fst (rmaS p ys i)) /\ datum m (snd (rmaS p xs i)) /\ datum m (snd (rmaS p ys i)) /\
  ngt (fst (rmaS p xs i)) (fst (rmaS p ys i)) /\ ngt (snd (rmaS p xs i)) (snd (rmaS p ys i)).
Proof.
  intros Hp Dx Dy H. induction i as [|i IH]; cbn [rmaS].
  { cbn [fst snd]. repeat split; try (apply (al_Z A)); apply ngt_refl. }
  destruct (rmaS p xs i) as [s r], (rmaS p ys i) as [s' r']. cbn [fst snd] in IH. destruct IH as (A1 & A2 & A3 & A4 & A5 & A6).
  pose proof (dat_nth (S i) Dx) as Q1. pose proof (dat_nth (S i) Dy) as Q2. pose proof (ngt_nth (S i) Dx Dy H) as Q3.
  destruct (Z.ltb_spec (Z.of_nat (S i)) p); cbn [fst snd].
  - assert (B1 : datum m (s +~ nth (S i) xs fzero)) by now apply (al_add A). assert (B2 : datum m (s' +~ nth (S i) ys fzero)) by now apply (al_add A).
    assert (B3 : ngt (s +~ nth (S i) xs fzero) (s' +~ nth (S i) ys fzero)) by now apply (ngt_add RL).
    repeat split; auto; try (apply (al_div A); [assumption|apply (al_Z A)]). apply (ngt_div RL); auto; [apply nngZ; lia|apply neZ; lia].
  - assert (C1 : datum m (r *~ ofZ (p - 1))) by (apply (al_mul A); [assumption|apply (al_Z A)]). assert (C2 : datum m (r' *~ ofZ (p - 1))) by (apply (al_mul A); [assumption|apply (al_Z A)]).
    assert (B1 : datum m (r *~ ofZ (p - 1) +~ nth (S i) xs fzero)) by now apply (al_add A). assert (B2 : datum m (r' *~ ofZ (p - 1) +~ nth (S i) ys fzero)) by now apply (al_add A).
    assert (B3 : ngt (r *~ ofZ (p - 1) +~ nth (S i) xs fzero) (r' *~ ofZ (p - 1) +~ nth (S i) ys fzero)) by (apply (ngt_add RL); auto; apply (ngt_mul_r RL); auto; apply nngZ; lia).
    repeat split; auto; try (apply (al_div A); [assumption|apply (al_Z A)]). apply (ngt_div RL); auto; [apply nngZ; lia|apply neZ; lia].
Qed.
Theorem C96_Rma p : 1 <= p < 2 ^ 53 -> rises_with (Forall (datum m)) (Rma p).
Proof.
  intros Hp xs ys Dx Dy H. rewrite !Rma_gen. eexists _, _. split; [reflexivity|]. split; [reflexivity|]. rewrite <- (na_length H). apply na_tab. intros i _.
  destruct (@rmaS_mono p xs ys i Hp Dx Dy H) as (I1 & I2 & I3 & I4 & _ & I). now apply (ngt_lt RL).
Qed.
End Rec.
Print Assumptions C96_Ema.
Print Assumptions C96_Rma.

(** ** Sums and averages of a window, in exact arithmetic *)
Lemma na_fins xs ys : nowhere_above (N := XR) (fins xs) (fins ys) <-> Forall2 Rle xs ys.
Proof.
  unfold nowhere_above, fins. split.
  - revert ys. induction xs as [|x xs IH]; intros [|y ys] H; inversion H; subst; constructor; [|now apply IH].
    match goal with Q : _ = false |- _ => cbn in Q; apply Rltb_f in Q; lra end.
  - intros H. induction H; cbn [map]; constructor; [|assumption]. cbn. apply Rltb_f. lra.
Qed.
Lemma F2_skipn k xs ys : Forall2 Rle xs ys -> Forall2 Rle (skipn k xs) (skipn k ys).
Proof. intros H. revert k. induction H; intros [|k]; cbn; try constructor; auto. Qed.
Lemma F2_firstn k xs ys : Forall2 Rle xs ys -> Forall2 Rle (firstn k xs) (firstn k ys).
Proof. intros H. revert k. induction H; intros [|k]; cbn; try constructor; auto. Qed.
Lemma F2_window i k xs ys : Forall2 Rle xs ys -> Forall2 Rle (window xs i k) (window ys i k).
Proof. intros H. unfold window. now apply F2_skipn, F2_firstn. Qed.
Lemma F2_length xs ys : Forall2 Rle xs ys -> length xs = length ys.
Proof. intros H. induction H; cbn; congruence. Qed.
Lemma Rsum_mono xs ys : Forall2 Rle xs ys -> (Rsum xs <= Rsum ys)%R.
Proof. intros H. unfold Rsum. induction H; cbn [fold_right]; lra. Qed.
Lemma mean_mono xs ys : Forall2 Rle xs ys -> (mean xs <= mean ys)%R.
Proof.
  intros H. unfold mean. rewrite (F2_length H). destruct ys as [|y ys]; [inversion H; subst; lra|]. apply Rmult_le_compat_r; [left; apply Rinv_0_lt_compat, lt_0_INR; cbn; lia|now apply Rsum_mono].
Qed.
Lemma wsum_mono xs ys : Forall2 Rle xs ys -> forall k, (0 <= k)%R -> (wsum_from k xs <= wsum_from k ys)%R.
Proof. intros H. induction H as [|x y xs ys Hxy H IH]; intros k Hk; cbn [wsum_from]; [lra|]. specialize (IH (k + 1)%R ltac:(lra)). nra. Qed.
Lemma wmean_mono xs ys : Forall2 Rle xs ys -> (wmean xs <= wmean ys)%R.
Proof.
  intros H. unfold wmean. rewrite (F2_length H). pose proof (@wsum_mono _ _ H 1%R ltac:(lra)) as Q.
  destruct ys as [|y ys]; [inversion H; subst; lra|]. unfold Rdiv. apply Rmult_le_compat_r; [|exact Q]. left. apply Rinv_0_lt_compat.
  assert (G : forall l : list nat, (0 <= Rsum (map (fun k => INR (S k)) l))%R).
  { unfold Rsum. induction l as [|a l IH]; cbn [map fold_right]; [lra|]. pose proof (pos_INR (S a)). lra. }
  cbn [length seq map]. change (Rsum (?a :: ?l)) with (a + Rsum l)%R. pose proof (G (seq 1 (length ys))). change (INR 1) with 1%R. lra.
Qed.
Definition real_values (xs : list (@F XR)) : Prop := exists rs, xs = fins rs.
Theorem C96_Sum_Sma (p : nat) : rises_with (N := XR) real_values (Sum (Z.of_nat p)) /\ ((1 <= p)%nat -> rises_with (N := XR) real_values (Sma (Z.of_nat p))).
Proof.
  assert (G : forall f g, (forall xs, f (fins xs) = Ok (tab (length xs) (fun i => Fin (g (window xs i p))))) -> (forall xs ys, Forall2 Rle xs ys -> (g xs <= g ys)%R) -> rises_with (N := XR) real_values f).
  { intros f g E Hg x y (xs & ->) (ys & ->) H. apply na_fins in H. rewrite !E. eexists _, _. split; [reflexivity|]. split; [reflexivity|]. rewrite <- (F2_length H).
    apply na_tab. intros i _. cbn. apply Rltb_f. now apply Hg, F2_window. }
  split; [apply G with (g := Rsum); [intros; apply Sum_exact|apply Rsum_mono]|]. intros Hp. apply G with (g := mean); [intros; now apply Sma_exact|apply mean_mono].
Qed.
Print Assumptions C96_Sum_Sma.
Theorem C96_Wma (p : nat) : (1 <= p)%nat -> rises_with (N := XR) (fun xs => real_values xs /\ (p <= S (length xs))%nat) (Wma (Z.of_nat p)).
Proof.
  intros Hp x y [(xs & ->) Lx] [(ys & ->) Ly] H. apply na_fins in H. rewrite fins_length in Lx, Ly. rewrite !C13_Wma_is_weighted_mean by assumption.
  eexists _, _. split; [reflexivity|]. split; [reflexivity|]. rewrite <- (F2_length H). apply na_tab. intros i _. destruct (S i <? p)%nat; cbn; apply Rltb_f; [lra|]. now apply wmean_mono, F2_window.
Qed.
Print Assumptions C96_Wma.

(** ** Where it fails *)
(** In float64 a moving average of running sums may fall when a price rises: a spike swallows the other prices, and its removal leaves 0. *)
Theorem C96_Sma_float_refuted : ~ (forall (L : MathLib) (p : Z), 1 <= p -> rises_with (N := B64 L) (Forall (datum (Float64 L))) (Sma p)).
Proof.
  intros H. specialize (H ex_lib 2 ltac:(lia)). specialize (H (fzs [1; 1; 1; 1]) (fzs [2 ^ 60; 1; 1; 1])).
  assert (V : forall l, Forall (datum (Float64 ex_lib)) (fzs l)) by (induction l as [|z l IH]; [constructor|]; constructor; [apply valid_ofZ|exact IH]).
  destruct (H (V _) (V _)) as (rx & ry & Ex & Ey & Q).
  { repeat constructor; vm_compute; reflexivity. }
  apply (na_nth (i := 3%nat) fzero) in Q.
  2:{ vm_compute in Ex. injection Ex as <-. cbn. lia. }
  vm_compute in Ex, Ey. injection Ex as <-. injection Ey as <-. vm_compute in Q. discriminate.
Qed.
Print Assumptions C96_Sma_float_refuted.
(** The double exponential average gives old prices negative weight, exactly. *)
Theorem C96_Dema_refuted : ~ (forall p, 1 <= p -> rises_with (N := XR) real_values (Dema p)).
Proof.
  intros H. specialize (H 3 ltac:(lia) (fins [0; 0; 0; 0]%R) (fins [8; 0; 0; 0]%R)).
  destruct H as (rx & ry & Ex & Ey & Q); [now eexists|now eexists|apply na_fins; repeat constructor; lra|].
  rewrite Dema_exact in Ex, Ey by lia. injection Ex as <-. injection Ey as <-.
  apply (na_nth (i := 3%nat) (Fin 0 : @F XR)) in Q; [|cbn; lia]. rewrite !tab_nth in Q by (cbn; lia). cbv zeta in Q. cbn in Q. apply Rltb_f in Q. unfold ema_a in Q. lra.
Qed.
Print Assumptions C96_Dema_refuted.
Example C96_hyp : nowhere_above (N := EX) (fzs [1; 5; 2; 7]) (fzs [1; 6; 2; 9]) /\ no_nan (fzs [1; 5; 2; 7]) /\
  Ema 3 (fzs [1; 5; 2; 7]) <> Ema 3 (fzs [1; 6; 2; 9]).
Proof. split; [repeat constructor; vm_compute; reflexivity|]. split; [repeat constructor; vm_compute; reflexivity|]. vm_compute. discriminate. Qed.
