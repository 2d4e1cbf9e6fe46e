(** * TaRange: true range, Atr, Natr, Divide, Stochastic. *)
From Coq Require Import SpecFloat.
From Verif Require Import Base Num B64 XReal Order Ta TaTools TaElem SpecTa RSum TaAvg TaOrd TaDev.
Set Implicit Arguments.

Section Gen.
Context {N : Num}.
Notation fl := (list F).

Definition tr_at (hs ls cs : fl) (i : nat) : F :=
  match i with
  | O => fzero
  | S j => tr1 (nth i hs fzero) (nth i ls fzero) (nth j cs fzero)
  end.

Lemma TRange_gen hs ls cs : (length cs <= length hs)%nat -> (length cs <= length ls)%nat ->
  TRange hs ls cs = Ok (tab (length cs) (tr_at hs ls cs)).
Proof.
  intros Hh Hl. unfold TRange. rewrite make_len; cbn [bind].
  destruct (Nat.eq_dec (length cs) 0) as [E|E].
  - rewrite for_empty by (unfold len; lia). rewrite E. reflexivity.
  - change 1 with (Z.of_nat 1). unfold len. apply fill_loop; [lia| |].
    + intros k Hk. replace k with 0%nat by lia. reflexivity.
    + intros [|i] Hi; [lia|].
      rewrite (@get_nat _ ls _ fzero), (@get_nat _ hs _ fzero) by lia. cbn [bind].
      change (Z.of_nat 1) with 1. replace (Z.of_nat (S i) - 1) with (Z.of_nat i) by lia.
      rewrite (@get_nat _ cs _ fzero) by lia. cbn [bind]. now apply partial_set.
Qed.
Lemma TRange_short hs ls cs : (2 <= length cs)%nat -> (length hs < length cs \/ length ls < length cs)%nat ->
  TRange hs ls cs = Panic.
Proof.
  intros H2 H. unfold TRange. rewrite make_len; cbn [bind].
  apply for_last_panic; [unfold len; lia|]. intros r.
  destruct (get ls (len cs - 1)) eqn:E1; cbn [bind]; [|reflexivity].
  destruct (get hs (len cs - 1)) eqn:E2; cbn [bind]; [|reflexivity].
  apply get_range in E1, E2. unfold len in *. lia.
Qed.
Lemma TrueRange_same hs ls cs : TrueRange hs ls cs = TRange hs ls cs.
Proof. reflexivity. Qed.

Lemma tr1_max (O : OrdLaws N) h l pc :
  nn (h -~ l) -> nn (fabs (pc -~ h)) -> nn (fabs (pc -~ l)) ->
  max_of (tr1 h l pc) [h -~ l; fabs (pc -~ h); fabs (pc -~ l)].
Proof.
  intros N1 N2 N3. unfold tr1.
  apply (@fold_max N O [fabs (pc -~ h); fabs (pc -~ l)] (h -~ l)); auto.
Qed.

(** ** Atr *)
Fixpoint atrS (p : nat) (tr : fl) (k : nat) : F :=        (* value at index p + k *)
  match k with
  | O => snd (rmaS (Z.of_nat p) tr p)
  | S k' => ((atrS p tr k' *~ (ofZ (Z.of_nat p) -~ ofZ 1)) +~ nth (p + k) tr fzero) /~ ofZ (Z.of_nat p)
  end.
Definition atr_out (p : nat) (tr : fl) (i : nat) : F := if (i <? p)%nat then fzero else atrS p tr (i - p).

Lemma Atr_gen hs ls cs (p : nat) : (2 <= p)%nat -> (p < length cs)%nat ->
  (length cs <= length hs)%nat -> (length cs <= length ls)%nat ->
  Atr hs ls cs (Z.of_nat p) = Ok (tab (length cs) (atr_out p (tab (length cs) (tr_at hs ls cs)))).
Proof.
  intros Hp Hc Hh Hl. unfold Atr. rewrite make_len; cbn [bind].
  destruct (Z.ltb_spec (Z.of_nat p) 1); [lia|]. destruct (Z.leb_spec (Z.of_nat p) 1); [lia|].
  rewrite TRange_gen by assumption; cbn [bind]. set (tr := tab (length cs) (tr_at hs ls cs)).
  assert (Ltr : length tr = length cs) by apply tab_length.
  rewrite Rma_gen; cbn [bind]. rewrite Ltr.
  rewrite (@get_nat _ _ p fzero) by (rewrite tab_length; lia). cbn [bind]. rewrite tab_nth by lia.
  rewrite (@partial_skips _ fzero (atr_out p tr) (length cs) p);
    [|lia|intros k Hk; unfold atr_out; destruct (Nat.ltb_spec k p); [reflexivity|lia]].
  rewrite partial_set; [cbn [bind]|lia|unfold atr_out; destruct (Nat.ltb_spec p p); [lia|]; now rewrite Nat.sub_diag].
  replace (Z.of_nat p + 1) with (Z.of_nat (S p)) by lia. unfold len.
  rewrite (@for_nat _ (fun i => (atrS p tr (i - p - 1), partial fzero (atr_out p tr) (length cs) i)) (S p) (length cs)).
  - cbn [bind]. now rewrite partial_full.
  - lia.
  - replace (S p - p - 1)%nat with 0%nat by lia. reflexivity.
  - intros i Hi. rewrite (@get_nat _ tr i fzero) by lia. cbn [bind].
    assert (E : atrS p tr (S i - p - 1) = ((atrS p tr (i - p - 1) *~ (ofZ (Z.of_nat p) -~ ofZ 1)) +~ nth i tr fzero) /~ ofZ (Z.of_nat p)).
    { replace (S i - p - 1)%nat with (S (i - p - 1)) by lia. cbn [atrS].
      replace (p + S (i - p - 1))%nat with i by lia. reflexivity. }
    rewrite <- E. rewrite partial_set; [reflexivity|lia|].
    unfold atr_out. destruct (Nat.ltb_spec i p); [lia|]. f_equal. lia.
Qed.
Lemma Atr_low hs ls cs p : p < 1 -> Atr hs ls cs p = Ok (repeat fzero (length cs)).
Proof. intros H. unfold Atr. rewrite make_len; cbn [bind]. destruct (Z.ltb_spec p 1); [reflexivity|lia]. Qed.
Lemma Atr_one hs ls cs : Atr hs ls cs 1 = TRange hs ls cs.
Proof. unfold Atr. rewrite make_len. reflexivity. Qed.
Lemma Atr_short hs ls cs p : 2 <= p -> len cs <= p -> Atr hs ls cs p = Panic.
Proof.
  intros Hp Hl. unfold Atr. rewrite make_len; cbn [bind].
  destruct (Z.ltb_spec p 1); [lia|]. destruct (Z.leb_spec p 1); [lia|].
  destruct (TRange hs ls cs) as [tr|] eqn:E; cbn [bind]; [|reflexivity].
  rewrite Rma_gen; cbn [bind].
  assert (Ltr : length tr = length cs).
  { unfold TRange in E. rewrite make_len in E; cbn [bind] in E.
    destruct (Nat.eq_dec (length cs) 0) as [E0|E0].
    - rewrite for_empty in E by (unfold len; lia). injection E as <-. now rewrite repeat_length.
    - eapply for_inv_ok with (I := fun _ r => length r = length cs) in E; auto.
      + unfold len; lia.
      + apply repeat_length.
      + intros i s s1 Hi Hs Eb.
        apply bind_ok in Eb as (a & _ & Eb). apply bind_ok in Eb as (b & _ & Eb). apply bind_ok in Eb as (c & _ & Eb).
        apply set_length in Eb. congruence. }
  rewrite get_out; [reflexivity|]. right. unfold len in *. rewrite tab_length. lia.
Qed.

(** ** Divide *)
Lemma Divide_ok xs ys : (length xs <= length ys)%nat -> Divide xs ys = Ok (zipWith div_clean xs ys).
Proof. apply map2_ok. Qed.
Definition finite_num (x : F) : Prop := isNaN x = false /\ isInf x = false.
Lemma div_clean_finite a b : finite_num (fzero : F) -> finite_num (div_clean a b).
Proof.
  intros H0. unfold div_clean. destruct (isNaN (a /~ b) || isInf (a /~ b)) eqn:E; [exact H0|].
  apply Bool.orb_false_iff in E. exact E.
Qed.
Lemma Divide_finite xs ys r : finite_num (fzero : F) -> Divide xs ys = Ok r -> Forall finite_num r.
Proof.
  intros H0 E. apply map2_ok_iff in E as [_ ->]. unfold zipWith. apply Forall_forall.
  intros x Hx. apply in_map_iff in Hx as ([a b] & <- & _). now apply div_clean_finite.
Qed.
Lemma Sma_clean_gen p xs r : isNaN (fzero : F) = false -> isNInf (fzero : F) = false -> Sma p xs = Ok r ->
  Forall (fun v => isNaN v = false /\ isNInf v = false) r.
Proof.
  intros H0 H1 E. destruct xs as [|x0 xs'] eqn:Ex; [injection E as <-; constructor|].
  rewrite <- Ex in E. destruct (Z.le_gt_cases 0 p) as [Hp|Hp]; [|rewrite Sma_neg in E by (auto; congruence); discriminate].
  rewrite <- (Z2Nat.id p) in E by exact Hp. rewrite Sma_gen in E. injection E as <-.
  apply Forall_forall. intros v Hv. apply in_map_iff in Hv as (i & <- & _). unfold sma_out, sma_clean.
  destruct (isNaN _ || isNInf _) eqn:E; [auto|]. now apply Bool.orb_false_iff in E.
Qed.
End Gen.

Lemma B64_zero_finite L : finite_num (fzero : @F (B64 L)).
Proof. split; reflexivity. Qed.
Lemma XR_zero_finite : finite_num (fzero : @F XR).
Proof. split; reflexivity. Qed.

(** ** Sma with period 0, bit for bit *)
Section SmaZero.
Variable L : MathLib.
Notation zero_or_nan x := (x = S754_zero false \/ x = S754_nan).

Lemma sf_cancel s v : zero_or_nan s -> zero_or_nan (@fsub (B64 L) (@fadd (B64 L) s v) v).
Proof.
  intros [-> | ->]; cbn [fsub fadd B64]; [|right; destruct v as [[]|[]| |[] ? ?]; reflexivity].
  destruct v as [[]|[]| |sg m e]; try (right; reflexivity); try (left; reflexivity).
  left. unfold SFsub, SFadd. cbn iota.
  rewrite Z.sub_diag. reflexivity.
Qed.

Lemma runSum0 (xs : list (@F (B64 L))) i : zero_or_nan (runSum 0 xs i).
Proof.
  induction i as [|i IH]; [left; reflexivity|]. cbn [runSum Nat.leb]. rewrite Nat.sub_0_r. now apply sf_cancel.
Qed.
Lemma Sma_zero_b64 (xs : list (@F (B64 L))) : Sma 0 xs = Ok (repeat fzero (length xs)).
Proof.
  change 0 with (Z.of_nat 0). rewrite Sma_gen. f_equal.
  rewrite <- (partial_full fzero). symmetry. apply partial_skips; [lia|].
  intros i Hi. unfold sma_out. cbn [Nat.leb].
  destruct (runSum0 xs (S i)) as [-> | ->]; reflexivity.
Qed.
End SmaZero.

(** ** Exact arithmetic *)
Local Open Scope R_scope.


Lemma tr1_exact h l pc : tr1 (N := XR) (Fin h) (Fin l) (Fin pc) = Fin (true_range h l pc).
Proof.
  unfold tr1. xr. cbn [fabs XR xabs flt xlt]. unfold true_range.
  destruct (Rltb_spec (h - l) (Rabs (pc - h))) as [H|H]; cbn [xlt].
  - rewrite (Rmax_right (h - l)) by lra.
    destruct (Rltb_spec (Rabs (pc - h)) (Rabs (pc - l))); [rewrite Rmax_right by lra|rewrite Rmax_left by lra]; reflexivity.
  - rewrite (Rmax_left (h - l)) by lra.
    destruct (Rltb_spec (h - l) (Rabs (pc - l))); [rewrite Rmax_right by lra|rewrite Rmax_left by lra]; reflexivity.
Qed.

Lemma true_range_nonneg h l pc : 0 <= true_range h l pc.
Proof. unfold true_range. eapply Rle_trans; [apply Rabs_pos|]. apply Rmax_r. Qed.
(** length of the smallest interval containing low, high and the previous close *)
Lemma true_range_hull h l pc : l <= h -> true_range h l pc = Rmax h pc - Rmin l pc.
Proof.
  intros H. unfold true_range, Rmax, Rmin, Rabs.
  repeat (destruct (Rcase_abs _) || destruct (Rle_dec _ _)); lra.
Qed.

Definition tr_real (hs ls cs : list R) (i : nat) : R :=
  match i with O => 0 | S j => true_range (nth i hs 0) (nth i ls 0) (nth j cs 0) end.
Lemma tr_real_nonneg hs ls cs i : 0 <= tr_real hs ls cs i.
Proof. destruct i; [cbn; lra|apply true_range_nonneg]. Qed.
Lemma tr_at_exact hs ls cs i : tr_at (N := XR) (fins hs) (fins ls) (fins cs) i = Fin (tr_real hs ls cs i).
Proof. destruct i as [|i]; [reflexivity|]. cbn [tr_at tr_real]. rewrite !fins_nth0. apply tr1_exact. Qed.

Lemma TRange_exact hs ls cs : (length cs <= length hs)%nat -> (length cs <= length ls)%nat ->
  TRange (N := XR) (fins hs) (fins ls) (fins cs) = Ok (tab (length cs) (fun i => Fin (tr_real hs ls cs i))).
Proof.
  intros Hh Hl. rewrite TRange_gen by (rewrite !fins_length; assumption). rewrite fins_length.
  f_equal. apply tab_ext. intros. apply tr_at_exact.
Qed.

(** Wilder's average of the true ranges: index p starts from Rma, later indices follow the recurrence. *)
Fixpoint wilder (p : nat) (t : nat -> R) (k : nat) : R :=
  match k with
  | O => ((sumf (fun j => t (S j)) (p - 1) / INR p) * (INR p - 1) + t p) / INR p
  | S k' => (wilder p t k' * (INR p - 1) + t (p + k)%nat) / INR p
  end.

Lemma wilder_nonneg p t k : (1 <= p)%nat -> (forall i, 0 <= t i) -> 0 <= wilder p t k.
Proof.
  intros Hp Ht. assert (1 <= INR p) by (change 1 with (INR 1); apply le_INR; lia).
  assert (Hd : forall a b, 0 <= a -> 0 <= b -> 0 <= (a * (INR p - 1) + b) / INR p).
  { intros a b Ha Hb. apply Rmult_le_pos; [nra|]. apply Rlt_le, Rinv_0_lt_compat; lra. }
  induction k as [|k IH]; cbn [wilder]; apply Hd; auto.
  apply Rmult_le_pos; [apply sumf_nonneg; auto|]. apply Rlt_le, Rinv_0_lt_compat; lra.
Qed.

Lemma atrS_exact (p : nat) tr k : (2 <= p)%nat -> nth 0 tr 0 = 0 -> (p + k < length tr)%nat ->
  atrS (N := XR) p (fins tr) k = Fin (wilder p (fun i => nth i tr 0) k).
Proof.
  intros Hp H0. assert (Hn : INR p <> 0) by (apply INR_nz; lia). induction k as [|k IH]; intros Hk; cbn [atrS wilder].
  - destruct p as [|q]; [lia|]. rewrite rma_recurrence by lia.
    rewrite rmaS_warm by lia. cbn [snd]. rewrite fins_nth0. xr. rewrite IZR_INR.
    rewrite minus_IZR, IZR_INR. rewrite xr_div by exact Hn. f_equal.
    cbn [Nat.sub]. rewrite Nat.sub_0_r.
    rewrite (sumf_first (fun k => nth k tr 0)), H0. repeat f_equal. lra.
  - rewrite IH by lia. rewrite fins_nth0. xr. rewrite IZR_INR. rewrite xr_div by exact Hn. reflexivity.
Qed.

Lemma Atr_exact hs ls cs (p : nat) : (2 <= p)%nat -> (p < length cs)%nat ->
  (length cs <= length hs)%nat -> (length cs <= length ls)%nat ->
  Atr (N := XR) (fins hs) (fins ls) (fins cs) (Z.of_nat p) =
  Ok (tab (length cs) (fun i => if (i <? p)%nat then Fin 0 else Fin (wilder p (tr_real hs ls cs) (i - p)))).
Proof.
  intros Hp Hc Hh Hl. rewrite Atr_gen by (rewrite ?fins_length; assumption). rewrite fins_length.
  f_equal. apply tab_ext. intros i Hi. unfold atr_out. destruct (Nat.ltb_spec i p); [reflexivity|].
  assert (Et : tab (length cs) (tr_at (N := XR) (fins hs) (fins ls) (fins cs)) = fins (tab (length cs) (tr_real hs ls cs))).
  { rewrite fins_tab. apply tab_ext. intros. apply tr_at_exact. }
  rewrite Et, atrS_exact; [|lia|rewrite tab_nth by lia; reflexivity|rewrite tab_length; lia].
  f_equal. remember (i - p)%nat as k eqn:Ek. assert (Hk : (p + k < length cs)%nat) by lia. clear Ek Hi H i.
  induction k as [|k IH]; cbn [wilder].
  - rewrite tab_nth by lia. f_equal. f_equal. f_equal. f_equal. apply sumf_ext. intros j Hj. rewrite tab_nth by lia. reflexivity.
  - rewrite IH by lia. rewrite tab_nth by lia. reflexivity.
Qed.

(** ** Stochastic *)
Lemma max_of_exact m l : max_of (N := XR) m (fins l) -> exists r, m = Fin r /\ In r l /\ forall x, In x l -> x <= r.
Proof.
  intros [(y & Iy & Ey) Hb]. apply in_map_iff in Iy as (r & <- & Ir).
  destruct m as [a| | |]; try discriminate. cbn in Ey. apply Reqb_true in Ey. subst a.
  exists r. split; [reflexivity|]. split; [exact Ir|]. intros x Hx.
  specialize (Hb (Fin x) (in_map Fin _ _ Hx)). cbn in Hb. now apply Rleb_true in Hb.
Qed.
Lemma min_of_exact m l : min_of (N := XR) m (fins l) -> exists r, m = Fin r /\ In r l /\ forall x, In x l -> r <= x.
Proof.
  intros [(y & Iy & Ey) Hb]. apply in_map_iff in Iy as (r & <- & Ir).
  destruct m as [a| | |]; try discriminate. cbn in Ey. apply Reqb_true in Ey. subst a.
  exists r. split; [reflexivity|]. split; [exact Ir|]. intros x Hx.
  specialize (Hb (Fin x) (in_map Fin _ _ Hx)). cbn in Hb. now apply Rleb_true in Hb.
Qed.
Lemma fins_no_nan l : no_nan (N := XR) (fins l).
Proof. apply Forall_forall. intros x Hx. apply in_map_iff in Hx as (r & <- & _). reflexivity. Qed.

(** largest and smallest value of a non-empty list *)
Lemma fold_rmax_ge d l x : In x l -> x <= fold_right Rmax d l.
Proof.
  induction l as [|a l IH]; [intros []|]. intros [<-|H]; cbn [fold_right]; [apply Rmax_l|].
  eapply Rle_trans; [now apply IH|apply Rmax_r].
Qed.
Lemma fold_rmax_in d l : In (fold_right Rmax d l) (d :: l).
Proof.
  induction l as [|a l IH]; cbn [fold_right]; [now left|]. unfold Rmax at 1. destruct (Rle_dec _ _).
  - destruct IH as [<-|H]; [now left|right; now right].
  - right; now left.
Qed.
Lemma fold_rmin_le d l x : In x l -> fold_right Rmin d l <= x.
Proof.
  induction l as [|a l IH]; [intros []|]. intros [<-|H]; cbn [fold_right]; [apply Rmin_l|].
  eapply Rle_trans; [apply Rmin_r|now apply IH].
Qed.
Lemma fold_rmin_in d l : In (fold_right Rmin d l) (d :: l).
Proof.
  induction l as [|a l IH]; cbn [fold_right]; [now left|]. unfold Rmin at 1. destruct (Rle_dec _ _).
  - right; now left.
  - destruct IH as [<-|H]; [now left|right; now right].
Qed.
Lemma rmax_spec l : l <> [] -> In (rmax l) l /\ forall x, In x l -> x <= rmax l.
Proof.
  intros Hl. split; [|intros; now apply fold_rmax_ge]. destruct l as [|a l]; [congruence|].
  unfold rmax; cbn [hd]. destruct (fold_rmax_in a (a :: l)) as [<-|H]; [now left|exact H].
Qed.
Lemma rmin_spec l : l <> [] -> In (rmin l) l /\ forall x, In x l -> rmin l <= x.
Proof.
  intros Hl. split; [|intros; now apply fold_rmin_le]. destruct l as [|a l]; [congruence|].
  unfold rmin; cbn [hd]. destruct (fold_rmin_in a (a :: l)) as [<-|H]; [now left|exact H].
Qed.

Lemma window_ne A (l : list A) i p : (i < length l)%nat -> (1 <= p)%nat -> window l i p <> [].
Proof.
  intros Hi Hp E. apply (f_equal (@length A)) in E. rewrite window_length in E by exact Hi.
  change (length (@nil A)) with 0%nat in E. lia.
Qed.

Lemma Max_exact (p : nat) xs : (1 <= p)%nat ->
  Max (N := XR) (Z.of_nat p) (fins xs) = Ok (tab (length xs) (fun i => Fin (rmax (window xs i p)))).
Proof.
  intros Hp. destruct (@Max_spec XR XR_ord p (fins xs) Hp (fins_no_nan xs)) as (r & -> & Hr & H).
  f_equal. rewrite fins_length in *. rewrite <- Hr at 1. rewrite (tab_of_list r (@fzero XR)). rewrite tab_length.
  rewrite Hr. apply tab_ext. intros i Hi. specialize (H i Hi). rewrite fins_window in H.
  apply max_of_exact in H as (m & -> & Im & Hm). f_equal.
  destruct (@rmax_spec (window xs i p)) as [I2 H2]; [now apply window_ne|].
  apply Rle_antisym; auto.
Qed.
Lemma Min_exact (p : nat) xs : (1 <= p)%nat ->
  Min (N := XR) (Z.of_nat p) (fins xs) = Ok (tab (length xs) (fun i => Fin (rmin (window xs i p)))).
Proof.
  intros Hp. destruct (@Min_spec XR XR_ord p (fins xs) Hp (fins_no_nan xs)) as (r & -> & Hr & H).
  f_equal. rewrite fins_length in *. rewrite <- Hr at 1. rewrite (tab_of_list r (@fzero XR)). rewrite tab_length.
  rewrite Hr. apply tab_ext. intros i Hi. specialize (H i Hi). rewrite fins_window in H.
  apply min_of_exact in H as (m & -> & Im & Hm). f_equal.
  destruct (@rmin_spec (window xs i p)) as [I2 H2]; [now apply window_ne|].
  apply Rle_antisym; auto.
Qed.

Lemma div_clean_exact a b : div_clean (N := XR) (Fin a) (Fin b) = Fin (if Reqb b 0 then 0 else a / b).
Proof.
  unfold div_clean. destruct (Reqb_spec b 0) as [->|Hb].
  - cbn [fdiv XR]. unfold xdiv. destruct (Reqb_spec 0 0); [|lra].
    unfold inf_sgn. destruct (Rltb_spec 0 a); [reflexivity|]. destruct (Rltb_spec a 0); reflexivity.
  - rewrite xr_div by exact Hb. reflexivity.
Qed.

(** %K over a window *)
Definition stoch_k (hs ls cs : list R) (p i : nat) : R :=
  let hh := rmax (window hs i p) in let ll := rmin (window ls i p) in
  (if Reqb (hh - ll) 0 then 0 else (nth i cs 0 - ll) / (hh - ll)) * 100.

Lemma Stochastic_exact cs hs ls (p : nat) : (1 <= p)%nat -> length hs = length cs -> length ls = length cs ->
  Stochastic (N := XR) (fins cs) (fins hs) (fins ls) (Z.of_nat p) =
  Ok (tab (length cs) (fun i => Fin (stoch_k hs ls cs p i)),
      tab (length cs) (fun i => Fin (mean (window (tab (length cs) (stoch_k hs ls cs p)) i 3)))).
Proof.
  intros Hp Hh Hl. unfold Stochastic. rewrite Max_exact, Min_exact by exact Hp. cbn [bind]. rewrite Hh, Hl.
  rewrite Subtract_ok by (rewrite fins_length, tab_length; lia). cbn [bind].
  rewrite Subtract_ok by (rewrite !tab_length; lia). cbn [bind].
  rewrite !zipWith_tab with (d := @fzero XR) by (rewrite ?fins_length, ?tab_length; lia).
  rewrite fins_length, tab_length. rewrite Divide_ok by (rewrite !tab_length; lia). cbn [bind].
  rewrite zipWith_tab with (d := @fzero XR) by (rewrite !tab_length; lia). rewrite tab_length, MultiplyBy_ok. cbn [bind].
  match goal with |- context [map ?f ?l] =>
    assert (Ek : map f l = fins (tab (length cs) (stoch_k hs ls cs p))) end.
  { rewrite fins_tab. unfold tab at 1. rewrite map_map. apply tab_ext. intros k Hk.
    rewrite !tab_nth by exact Hk. rewrite fins_nth0. xr. rewrite div_clean_exact. xr. f_equal. unfold stoch_k.
    replace (rmax (window hs k p) + rmin (window ls k p) * -1) with (rmax (window hs k p) - rmin (window ls k p)) by lra.
    replace (nth k cs 0 + rmin (window ls k p) * -1) with (nth k cs 0 - rmin (window ls k p)) by lra. reflexivity. }
  rewrite Ek. change 3%Z with (Z.of_nat 3). rewrite Sma_exact by lia. cbn [bind].
  rewrite fins_tab, tab_length. reflexivity.
Qed.

Lemma stoch_k_bounds hs ls cs p i : (1 <= p)%nat -> length hs = length cs -> length ls = length cs -> (i < length cs)%nat ->
  nth i ls 0 <= nth i cs 0 <= nth i hs 0 -> 0 <= stoch_k hs ls cs p i <= 100.
Proof.
  intros Hp Hh Hl Hi [H1 H2]. unfold stoch_k. set (hh := rmax _). set (ll := rmin _).
  assert (Hin : forall l : list R, (i < length l)%nat -> In (nth i l 0) (window l i p)).
  { intros l Hlen. replace (nth i l 0) with (nth (Nat.min (S i) p - 1) (window l i p) 0).
    - apply nth_In. rewrite window_length by exact Hlen. lia.
    - rewrite window_nth by lia. f_equal. lia. }
  assert (nth i hs 0 <= hh) by (apply (rmax_spec (@window_ne _ hs i p ltac:(lia) Hp)), Hin; lia).
  assert (ll <= nth i ls 0) by (apply (rmin_spec (@window_ne _ ls i p ltac:(lia) Hp)), Hin; lia).
  destruct (Reqb_spec (hh - ll) 0) as [E|E]; [lra|].
  assert (Hd : 0 < hh - ll) by lra.
  assert (0 <= (nth i cs 0 - ll) / (hh - ll)) by (apply Rmult_le_pos; [lra|apply Rlt_le, Rinv_0_lt_compat; lra]).
  assert ((nth i cs 0 - ll) / (hh - ll) <= 1).
  { apply Rmult_le_reg_r with (hh - ll); [exact Hd|]. unfold Rdiv. rewrite Rmult_assoc, Rinv_l by lra. lra. }
  lra.
Qed.

Lemma mean_bounds l a b : l <> [] -> (forall x, In x l -> a <= x <= b) -> a <= mean l <= b.
Proof.
  intros Hl H. unfold mean. assert (Hn : 0 < INR (length l)) by (apply INR_pos; destruct l; [congruence|cbn; lia]).
  assert (Hs : INR (length l) * a <= Rsum l <= INR (length l) * b).
  { clear Hl Hn. induction l as [|x l IH]; [rewrite Rsum_nil; cbn; lra|]. rewrite Rsum_cons. cbn [length]. rewrite S_INR.
    assert (a <= x <= b) by (apply H; now left). assert (INR (length l) * a <= Rsum l <= INR (length l) * b) by (apply IH; intros; apply H; now right). lra. }
  split; apply Rmult_le_reg_r with (INR (length l)); auto; unfold Rdiv; rewrite Rmult_assoc, Rinv_l by lra; lra.
Qed.
Lemma window_In A (l : list A) i p x : In x (window l i p) -> In x l.
Proof. unfold window. intros H. apply skipn_In in H. now apply firstn_In in H. Qed.
