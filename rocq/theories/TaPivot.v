(** * TaPivot: PivotMax and PivotMin. *)
From Verif Require Import Base Num XReal Order Containers Ta TaTools TaElem SpecTa TaOrd.
Set Implicit Arguments.

Section Ord.
Context {N : Num} (O : OrdLaws N).
Notation fl := (list F).
Variable xs : fl.
Hypothesis Hnn : no_nan xs.
Notation x := (fun j => nth j xs fzero).

Lemma nn_x j : (j < length xs)%nat -> nn (x j).
Proof. intros H. unfold no_nan in Hnn. rewrite Forall_forall in Hnn. apply Hnn, nth_In, H. Qed.

(** One scan outward from [ix]; [at_ i] is the index visited at step [i]. *)
Section Scan.
Variable at_ : nat -> nat.
Variable n : nat.
Variable ix : nat.
Hypothesis at_in : forall i, (i < n)%nat -> (at_ i < length xs)%nat.
Variable atZ : Z -> Z.
Hypothesis atZ_ok : forall i, (i < n)%nat -> atZ (Z.of_nat i) = Z.of_nat (at_ i).

Lemma scan_min v0 : nn v0 ->
  exists v pos,
    for_ 0 (Z.of_nat n) (fun i '(lv, lp) => v <- get xs (atZ i) ;;
       Ok (if v <~ lv then (v, atZ i) else (lv, lp))) (v0, Z.of_nat ix) = Ok (v, Z.of_nat pos) /\
    nn v /\ le v v0 /\
    ((v = v0 /\ pos = ix) \/ (exists i, (i < n)%nat /\ pos = at_ i /\ v = x pos)) /\
    (forall i, (i < n)%nat -> le v (x (at_ i))).
Proof.
  intros H0.
  destruct (@for_inv_nat _ (fun k (s : F * Z) => exists v pos, s = (v, Z.of_nat pos) /\ nn v /\ le v v0 /\
      ((v = v0 /\ pos = ix) \/ (exists i, (i < k)%nat /\ pos = at_ i /\ v = x pos)) /\
      (forall i, (i < k)%nat -> le v (x (at_ i)))) 0 n
      (fun i '(lv, lp) => v <- get xs (atZ i) ;; Ok (if v <~ lv then (v, atZ i) else (lv, lp))) (v0, Z.of_nat ix)) as (s & E & v & pos & -> & Hs).
  - lia.
  - exists v0, ix. repeat split; auto; [now apply (le_refl O)|intros; lia].
  - intros i s Hi (v & pos & -> & Hv & Hle & Hsrc & Hall). rewrite atZ_ok by lia.
    rewrite (@get_nat _ xs _ fzero) by (apply at_in; lia). cbn [bind].
    assert (Hx : nn (x (at_ i))) by (apply nn_x, at_in; lia).
    destruct (x (at_ i) <~ v) eqn:Ec; cbn beta in Ec.
    + eexists; split; [reflexivity|]. exists (x (at_ i)), (at_ i). split; [reflexivity|]. split; [exact Hx|].
      assert (Hlt : le (x (at_ i)) v) by now apply (lt_le O).
      split; [eapply (le_trans O) with (y := v); auto|]. split.
      * right. exists i. split; [lia|auto].
      * intros j Hj. destruct (Nat.eq_dec j i) as [->|]; [now apply (le_refl O)|].
        eapply (le_trans O) with (y := v); auto; [apply nn_x, at_in; lia|apply Hall; lia].
    + eexists; split; [reflexivity|]. exists v, pos. split; [reflexivity|]. split; [exact Hv|]. split; [exact Hle|]. split.
      * destruct Hsrc as [?|(j & Hj & ?)]; [now left|right]. exists j. split; [lia|auto].
      * intros j Hj. destruct (Nat.eq_dec j i) as [->|]; [exact Ec|]. apply Hall; lia.
  - exists v, pos. split; [exact E|exact Hs].
Qed.

Lemma scan_max v0 : nn v0 ->
  exists v pos,
    for_ 0 (Z.of_nat n) (fun i '(lv, lp) => v <- get xs (atZ i) ;;
       Ok (if lv <~ v then (v, atZ i) else (lv, lp))) (v0, Z.of_nat ix) = Ok (v, Z.of_nat pos) /\
    nn v /\ le v0 v /\
    ((v = v0 /\ pos = ix) \/ (exists i, (i < n)%nat /\ pos = at_ i /\ v = x pos)) /\
    (forall i, (i < n)%nat -> le (x (at_ i)) v).
Proof.
  intros H0.
  destruct (@for_inv_nat _ (fun k (s : F * Z) => exists v pos, s = (v, Z.of_nat pos) /\ nn v /\ le v0 v /\
      ((v = v0 /\ pos = ix) \/ (exists i, (i < k)%nat /\ pos = at_ i /\ v = x pos)) /\
      (forall i, (i < k)%nat -> le (x (at_ i)) v)) 0 n
      (fun i '(lv, lp) => v <- get xs (atZ i) ;; Ok (if lv <~ v then (v, atZ i) else (lv, lp))) (v0, Z.of_nat ix)) as (s & E & v & pos & -> & Hs).
  - lia.
  - exists v0, ix. repeat split; auto; [now apply (le_refl O)|intros; lia].
  - intros i s Hi (v & pos & -> & Hv & Hle & Hsrc & Hall). rewrite atZ_ok by lia.
    rewrite (@get_nat _ xs _ fzero) by (apply at_in; lia). cbn [bind].
    assert (Hx : nn (x (at_ i))) by (apply nn_x, at_in; lia).
    destruct (v <~ x (at_ i)) eqn:Ec; cbn beta in Ec.
    + eexists; split; [reflexivity|]. exists (x (at_ i)), (at_ i). split; [reflexivity|]. split; [exact Hx|].
      assert (Hlt : le v (x (at_ i))) by now apply (lt_le O).
      split; [eapply (le_trans O) with (y := v); auto|]. split.
      * right. exists i. split; [lia|auto].
      * intros j Hj. destruct (Nat.eq_dec j i) as [->|]; [now apply (le_refl O)|].
        eapply (le_trans O) with (y := v); auto; [apply nn_x, at_in; lia|apply Hall; lia].
    + eexists; split; [reflexivity|]. exists v, pos. split; [reflexivity|]. split; [exact Hv|]. split; [exact Hle|]. split.
      * destruct Hsrc as [?|(j & Hj & ?)]; [now left|right]. exists j. split; [lia|auto].
      * intros j Hj. destruct (Nat.eq_dec j i) as [->|]; [exact Ec|]. apply Hall; lia.
  - exists v, pos. split; [exact E|exact Hs].
Qed.
End Scan.

Variables ix l r : nat.
Hypothesis Hix : (ix < length xs)%nat.
(** positions ix-l .. ix+r, clipped to the slice *)
Definition around (j : nat) : Prop := (ix <= j + l)%nat /\ (j <= ix + r)%nat /\ (j < length xs)%nat.

Lemma nl_eq : Z.min (Z.of_nat l) (Z.of_nat ix) + 1 = Z.of_nat (S (Nat.min l ix)).
Proof. lia. Qed.
Lemma nr_eq : Z.min (Z.of_nat r) (len xs - 1 - Z.of_nat ix) + 1 = Z.of_nat (S (Nat.min r (length xs - 1 - ix))).
Proof. unfold len. lia. Qed.

Lemma PivotMin_spec :
  exists v pos, PivotMin xs (Z.of_nat ix) (Z.of_nat l) (Z.of_nat r) = Ok (v, Z.of_nat pos) /\
    around pos /\ v = x pos /\
    ((forall j, around j -> (v <=~ x j) = true) \/
     (pos = ix /\ exists j k, around j /\ around k /\ (j < ix < k)%nat /\ (x j ==~ x k) = true /\ (x j <~ x ix) = true)).
Proof.
  assert (Nc := nn_x Hix). unfold PivotMin. rewrite (@get_nat _ xs ix fzero) by exact Hix. cbn [bind].
  rewrite nl_eq, nr_eq.
  destruct (@scan_min (fun i => ix - i)%nat (S (Nat.min l ix)) ix ltac:(cbv beta; intros; lia) (fun i => Z.of_nat ix - i) ltac:(cbv beta; intros; lia) (x ix) Nc)
    as (lv & lp & El & Nl & Ll & Sl & Al).
  destruct (@scan_min (fun i => ix + i)%nat (S (Nat.min r (length xs - 1 - ix))) ix ltac:(cbv beta; intros; lia) (fun i => Z.of_nat ix + i) ltac:(cbv beta; intros; lia) (x ix) Nc)
    as (rv & rp & Er & Nr & Lr & Sr & Ar).
  cbv beta in *. rewrite El; cbn [bind]. rewrite Er; cbn [bind].
  assert (Sl' : around lp /\ lv = x lp /\ (lp <= ix)%nat).
  { destruct Sl as [[-> ->]|(i & Hi & -> & ->)]; unfold around; repeat split; try lia. }
  assert (Sr' : around rp /\ rv = x rp /\ (ix <= rp)%nat).
  { destruct Sr as [[-> ->]|(i & Hi & -> & ->)]; unfold around; repeat split; try lia. }
  assert (Al' : forall j, around j -> (j <= ix)%nat -> le lv (x j)).
  { intros j Hj Hle. unfold around in Hj. specialize (Al (ix - j)%nat). replace (ix - (ix - j))%nat with j in Al by lia. apply Al; lia. }
  assert (Ar' : forall j, around j -> (ix <= j)%nat -> le rv (x j)).
  { intros j Hj Hle. unfold around in Hj. specialize (Ar (j - ix)%nat). replace (ix + (j - ix))%nat with j in Ar by lia. apply Ar; lia. }
  clear Al Ar Sl Sr. destruct Sl' as (Hlp & Elv & Hl2). destruct Sr' as (Hrp & Erv & Hr2).
  assert (Nj : forall j, around j -> nn (x j)) by (intros j Hj; apply nn_x; apply Hj).
  destruct (lv <~ rv) eqn:E1; [|destruct (rv <~ lv) eqn:E2].
  - exists lv, lp. split; [reflexivity|]. split; [exact Hlp|]. split; [exact Elv|]. left.
    intros j Hj. apply (fle_le O); auto. destruct (Nat.le_gt_cases j ix); [auto|].
    eapply (le_trans O) with (y := rv); auto; try (now apply (lt_le O)); try (apply Ar'; auto; lia).
  - exists rv, rp. split; [reflexivity|]. split; [exact Hrp|]. split; [exact Erv|]. left.
    intros j Hj. apply (fle_le O); auto. destruct (Nat.le_gt_cases ix j); [auto|].
    eapply (le_trans O) with (y := lv); auto; try (now apply (lt_le O)); try (apply Al'; auto; lia).
  - exists (x ix), ix. split; [reflexivity|]. assert (Hai : around ix) by (unfold around; lia).
    split; [exact Hai|]. split; [reflexivity|].
    destruct (lv <~ x ix) eqn:E3.
    + right. split; [reflexivity|]. exists lp, rp. split; [exact Hlp|]. split; [exact Hrp|].
      assert (lp <> ix) by (intros ->; cbn beta in *; rewrite Elv in E3; pose proof (@ol_asym N O _ _ Nc Nc E3); congruence).
      assert (rp <> ix).
      { intros ->. cbn beta in *.
        assert (Hc : flt lv rv = true) by (rewrite Erv; exact E3). congruence. }
      split; [lia|]. cbn beta. rewrite <- Elv, <- Erv. split; [|exact E3]. apply (feq_le O); auto.
    + left. intros j Hj. apply (fle_le O); auto. eapply (le_trans O) with (y := lv); auto.
      destruct (Nat.le_gt_cases j ix); [auto|]. eapply (le_trans O) with (y := rv); auto; try (apply Ar'; auto; lia).
Qed.

Lemma PivotMax_spec :
  exists v pos, PivotMax xs (Z.of_nat ix) (Z.of_nat l) (Z.of_nat r) = Ok (v, Z.of_nat pos) /\
    around pos /\ v = x pos /\
    ((forall j, around j -> (x j <=~ v) = true) \/
     (pos = ix /\ exists j k, around j /\ around k /\ (j < ix < k)%nat /\ (x j ==~ x k) = true /\ (x ix <~ x j) = true) \/
     (pos = ix /\ forall j, around j -> (x j <=~ fzero) = true)).
Proof.
  assert (Nc := nn_x Hix). assert (Nz : nn (fzero : F)) by apply (ol_zero O). unfold PivotMax.
  rewrite nl_eq, nr_eq.
  destruct (@scan_max (fun i => ix - i)%nat (S (Nat.min l ix)) ix ltac:(cbv beta; intros; lia) (fun i => Z.of_nat ix - i) ltac:(cbv beta; intros; lia) fzero Nz)
    as (lv & lp & El & Nl & Ll & Sl & Al).
  destruct (@scan_max (fun i => ix + i)%nat (S (Nat.min r (length xs - 1 - ix))) ix ltac:(cbv beta; intros; lia) (fun i => Z.of_nat ix + i) ltac:(cbv beta; intros; lia) fzero Nz)
    as (rv & rp & Er & Nr & Lr & Sr & Ar).
  cbv beta in *. rewrite El; cbn [bind]. rewrite Er; cbn [bind]. rewrite (@get_nat _ xs ix fzero) by exact Hix. cbn [bind].
  assert (Sl' : around lp /\ (lv = fzero \/ lv = x lp) /\ (lp <= ix)%nat).
  { destruct Sl as [[-> ->]|(i & Hi & -> & ->)]; unfold around; repeat split; try lia; auto. }
  assert (Sr' : around rp /\ (rv = fzero \/ rv = x rp) /\ (ix <= rp)%nat).
  { destruct Sr as [[-> ->]|(i & Hi & -> & ->)]; unfold around; repeat split; try lia; auto. }
  assert (Al' : forall j, around j -> (j <= ix)%nat -> le (x j) lv).
  { intros j Hj Hle. unfold around in Hj. specialize (Al (ix - j)%nat). replace (ix - (ix - j))%nat with j in Al by lia. apply Al; lia. }
  assert (Ar' : forall j, around j -> (ix <= j)%nat -> le (x j) rv).
  { intros j Hj Hle. unfold around in Hj. specialize (Ar (j - ix)%nat). replace (ix + (j - ix))%nat with j in Ar by lia. apply Ar; lia. }
  clear Al Ar Sl Sr. destruct Sl' as (Hlp & Elv & Hl2). destruct Sr' as (Hrp & Erv & Hr2).
  assert (Nj : forall j, around j -> nn (x j)) by (intros j Hj; apply nn_x; apply Hj).
  destruct (rv <~ lv) eqn:E1; [|destruct (lv <~ rv) eqn:E2].
  - exists lv, lp. split; [reflexivity|]. split; [exact Hlp|]. split.
    { destruct Elv as [Elv|Elv]; [|exact Elv]. exfalso. unfold le in Lr. congruence. }
    left. intros j Hj. apply (fle_le O); auto. destruct (Nat.le_gt_cases j ix); [auto|].
    eapply (le_trans O) with (y := rv); auto; try (now apply (lt_le O)); try (apply Ar'; auto; lia).
  - exists rv, rp. split; [reflexivity|]. split; [exact Hrp|]. split.
    { destruct Erv as [Erv|Erv]; [|exact Erv]. exfalso. unfold le in Ll. congruence. }
    left. intros j Hj. apply (fle_le O); auto. destruct (Nat.le_gt_cases ix j); [auto|].
    eapply (le_trans O) with (y := lv); auto; try (now apply (lt_le O)); try (apply Al'; auto; lia).
  - exists (x ix), ix. split; [reflexivity|]. assert (Hai : around ix) by (unfold around; lia).
    split; [exact Hai|]. split; [reflexivity|].
    assert (Hall : forall j, around j -> le (x j) lv).
    { intros j Hj. destruct (Nat.le_gt_cases j ix); [auto|]. eapply (le_trans O) with (y := rv); auto; try (apply Ar'; auto; lia). }
    destruct (fzero <~ lv) eqn:E0.
    + destruct (x ix <~ lv) eqn:E3.
      * right; left. split; [reflexivity|]. exists lp, rp. split; [exact Hlp|]. split; [exact Hrp|].
        assert (Elv' : lv = x lp).
        { destruct Elv as [Elv|Elv]; [|exact Elv]. exfalso. rewrite Elv in E0. pose proof (@ol_asym N O _ _ Nz Nz E0). congruence. }
        assert (Erv' : rv = x rp).
        { destruct Erv as [Erv|Erv]; [|exact Erv]. exfalso. rewrite Erv in E1. congruence. }
        assert (lp <> ix) by (intros ->; cbn beta in *; rewrite Elv' in E3; pose proof (@ol_asym N O _ _ Nc Nc E3); congruence).
        assert (rp <> ix).
        { intros ->. cbn beta in *. assert (Hc : flt rv lv = true) by (rewrite Erv'; exact E3). congruence. }
        split; [lia|]. cbn beta. rewrite <- Elv', <- Erv'. split; [|exact E3]. apply (feq_le O); auto.
      * left. intros j Hj. apply (fle_le O); auto. eapply (le_trans O) with (y := lv); auto.
    + right; right. split; [reflexivity|]. intros j Hj. apply (fle_le O); auto. eapply (le_trans O) with (y := lv); auto.
Qed.
End Ord.
