(** * TaReg: least squares. *)
From Verif Require Import Base Num XReal Order Ta TaTools TaElem SpecTa RSum TaAvg TaStat TaDev Regression.
Set Implicit Arguments.
Local Open Scope R_scope.

(** ** Least squares over the reals *)
Definition Sx (l : list (R * R)) := Rsum (map fst l).
Definition Sy (l : list (R * R)) := Rsum (map snd l).
Definition Sxx (l : list (R * R)) := Rsum (map (fun q => fst q * fst q) l).
Definition Sxy (l : list (R * R)) := Rsum (map (fun q => fst q * snd q) l).
Definition Syy (l : list (R * R)) := Rsum (map (fun q => snd q * snd q) l).

Lemma sse_sums b m l :
  sse b m l = Syy l - 2 * b * Sy l - 2 * m * Sxy l + INR (length l) * b * b + 2 * b * m * Sx l + m * m * Sxx l.
Proof.
  unfold sse, Sx, Sy, Sxx, Sxy, Syy. induction l as [|[x y] l IH]; cbn [map length]; rewrite ?Rsum_nil, ?Rsum_cons.
  - change (INR 0) with 0; lra.
  - rewrite IH, S_INR. cbn [fst snd]. ring.
Qed.

Lemma spread_nonneg l : let c := Sx l / INR (length l) in
  l <> [] -> INR (length l) * Sxx l - Sx l * Sx l = INR (length l) * Rsum (map (fun q => (fst q - c) * (fst q - c)) l).
Proof.
  intros c Hl. assert (Hn : INR (length l) <> 0) by (apply INR_nz; destruct l; [congruence|cbn; lia]).
  assert (E : Rsum (map (fun q : R * R => (fst q - c) * (fst q - c)) l) = Sxx l - 2 * c * Sx l + INR (length l) * c * c).
  { unfold Sx, Sxx. clear Hn Hl. generalize c; clear c; intros c. induction l as [|[x y] l IH]; cbn [map length]; rewrite ?Rsum_nil, ?Rsum_cons.
    - change (INR 0) with 0; lra.
    - rewrite IH, S_INR. cbn [fst snd]. ring. }
  rewrite E. unfold c. field. exact Hn.
Qed.

Lemma Rsum_sq_zero A (g : A -> R) l : Rsum (map (fun q => g q * g q) l) = 0 -> forall q, In q l -> g q = 0.
Proof.
  induction l as [|a l IH]; cbn [map]; rewrite ?Rsum_cons; [intros _ q []|].
  intros E.
  assert (0 <= Rsum (map (fun q => g q * g q) l)).
  { clear. induction l as [|a l IH]; cbn [map]; rewrite ?Rsum_nil, ?Rsum_cons; [lra|nra]. }
  assert (0 <= g a * g a) by nra. intros q [->|Hq]; [nra|]. apply IH; [lra|exact Hq].
Qed.
Lemma Rsum_sq_nonneg A (g : A -> R) l : 0 <= Rsum (map (fun q => g q * g q) l).
Proof. induction l as [|a l IH]; cbn [map]; rewrite ?Rsum_nil, ?Rsum_cons; [lra|nra]. Qed.

Lemma spread_pos l a b : In a l -> In b l -> fst a <> fst b ->
  0 < INR (length l) * Sxx l - Sx l * Sx l.
Proof.
  intros Ha Hb Hab. assert (Hl : l <> []) by (destruct l; [destruct Ha|discriminate]).
  rewrite spread_nonneg by exact Hl. set (c := Sx l / INR (length l)).
  apply Rmult_lt_0_compat; [apply INR_pos; destruct l; [congruence|cbn; lia]|].
  destruct (Rsum_sq_nonneg (fun q : R * R => fst q - c) l) as [H|H]; [exact H|].
  symmetry in H. pose proof (Rsum_sq_zero (fun q : R * R => fst q - c) l H a Ha) as E1.
  pose proof (Rsum_sq_zero (fun q : R * R => fst q - c) l H b Hb) as E2. cbn in E1, E2. lra.
Qed.

(** The closed formulas used by the code give the least-squares line. *)
Definition slope (l : list (R * R)) : R :=
  (INR (length l) * Sxy l - Sx l * Sy l) / (INR (length l) * Sxx l - Sx l * Sx l).
Definition intercept (l : list (R * R)) : R := (Sy l - slope l * Sx l) / INR (length l).

Lemma least_squares_line l a b : In a l -> In b l -> fst a <> fst b ->
  least_squares (intercept l) (slope l) l.
Proof.
  intros Ha Hb Hab. pose proof (spread_pos l a b Ha Hb Hab) as HD.
  assert (Hn : 0 < INR (length l)) by (apply INR_pos; destruct l; [destruct Ha|cbn; lia]).
  set (n := INR (length l)) in *. set (m := slope l). set (b0 := intercept l).
  assert (N1 : Sy l = n * b0 + m * Sx l).
  { unfold b0, intercept. fold m. fold n. field. lra. }
  assert (N2 : Sxy l = b0 * Sx l + m * Sxx l).
  { unfold b0, intercept, m, slope. fold n. field. split; lra. }
  assert (K : forall b' m', n * (sse b' m' l - sse b0 m l) =
             ((n * (b' - b0) + (m' - m) * Sx l) * (n * (b' - b0) + (m' - m) * Sx l)
              + (m' - m) * (m' - m) * (n * Sxx l - Sx l * Sx l))).
  { intros b' m'. rewrite !sse_sums. fold n. rewrite N1, N2. ring. }
  clear N1 N2. clearbody m b0.
  split; intros b' m'; specialize (K b' m').
  - assert (0 <= n * (sse b' m' l - sse b0 m l)).
    { rewrite K. assert (0 <= (m' - m) * (m' - m)) by apply Rle_0_sqr.
      assert (0 <= (m' - m) * (m' - m) * (n * Sxx l - Sx l * Sx l)) by (apply Rmult_le_pos; lra).
      assert (0 <= (n * (b' - b0) + (m' - m) * Sx l) * (n * (b' - b0) + (m' - m) * Sx l)) by apply Rle_0_sqr. lra. }
    apply Rmult_le_reg_l with n; lra.
  - intros H. assert (Hle : n * (sse b' m' l - sse b0 m l) <= 0) by (apply Rmult_le_compat_l with (r := n) in H; lra). rewrite K in Hle.
    set (u := n * (b' - b0) + (m' - m) * Sx l) in *. set (v := m' - m) in *.
    assert (Hv0 : 0 <= v * v) by apply Rle_0_sqr. assert (Hu0 : 0 <= u * u) by apply Rle_0_sqr.
    assert (Hv : v * v * (n * Sxx l - Sx l * Sx l) <= 0) by lra.
    assert (v = 0). { destruct (Req_dec v 0) as [|Hne]; [assumption|]. assert (0 < v * v) by (apply Rsqr_pos_lt; exact Hne). assert (0 < v * v * (n * Sxx l - Sx l * Sx l)) by (apply Rmult_lt_0_compat; lra). lra. }
    assert (v * v * (n * Sxx l - Sx l * Sx l) = 0) by (rewrite H0; ring).
    assert (u = 0) by (apply Rsqr_0_uniq; unfold Rsqr; lra).
    assert (E : n * (b' - b0) = 0) by (unfold u in *; unfold v in *; rewrite H0 in *; lra).
    apply Rmult_integral in E. unfold v in *. destruct E; split; lra.
Qed.

(** ** Abscissae 0 .. p-1 *)
Lemma points_tab n f : points (tab n f) = tab n (fun k => (INR k, f k)).
Proof.
  unfold points. rewrite tab_length. unfold tab. generalize (seq 0 n) as l.
  induction l as [|a l IH]; cbn; [reflexivity|]. now rewrite IH.
Qed.
Lemma map_tab A B (g : A -> B) n f : map g (tab n f) = tab n (fun k => g (f k)).
Proof. unfold tab. apply map_map. Qed.

Lemma sum_idx p : sumf INR p = INR p * (INR p - 1) / 2.
Proof. induction p as [|p IH]; [cbn; lra|]. cbn [sumf]. rewrite IH, S_INR. field. Qed.
Lemma sum_idx2 p : sumf (fun k => INR k * INR k) p = INR p * (INR p - 1) * (2 * INR p - 1) / 6.
Proof. induction p as [|p IH]; [cbn; lra|]. cbn [sumf]. rewrite IH, S_INR. field. Qed.

(** ** LinearReg *)
Section LR.
Variables (p : nat) (xs : list R).
Hypothesis Hp : (2 <= p)%nat.
Hypothesis Hlen : (p <= length xs)%nat.
Notation x := (fun i => nth i xs 0).
Notation sy i := (sumf (fun k => x (i + k)%nat) p).
Notation sxy i := (sumf (fun k => (INR p - 1 - INR k) * x (i + k)%nat) p).

Lemma sy_step i : sy (S i) = sy i + (x (i + p)%nat - x i).
Proof.
  pose proof (sumf_first (fun k => x (i + k)%nat) p) as E. cbn [sumf] in E.
  cbn beta in E. rewrite Nat.add_0_r in E.
  rewrite (sumf_ext (fun k => x (S i + k)%nat) (fun k => x (i + S k)%nat)); [lra|].
  intros k _. f_equal. lia.
Qed.
Lemma sxy_step i : sxy (S i) = sxy i + (sy i - INR p * x i).
Proof.
  pose proof (sumf_first (fun k => (INR p - INR k) * x (i + k)%nat) p) as E. cbn [sumf] in E.
  cbn beta in E. rewrite Nat.add_0_r in E. change (INR 0) with 0 in E.
  assert (E2 : sumf (fun k => (INR p - INR k) * x (i + k)%nat) p = sxy i + sy i).
  { rewrite <- sumf_plus. apply sumf_ext. intros; lra. }
  rewrite (sumf_ext (fun k => (INR p - 1 - INR k) * x (S i + k)%nat) (fun k => (INR p - INR (S k)) * x (i + S k)%nat)).
  2:{ intros k _. rewrite S_INR. replace (S i + k)%nat with (i + S k)%nat by lia. lra. }
  lra.
Qed.

Definition lr_w (i : nat) := points (window xs i p).

Lemma lr_w_tab i : (p <= S i)%nat -> (i < length xs)%nat ->
  lr_w i = tab p (fun k => (INR k, x (S i - p + k)%nat)).
Proof. intros H1 H2. unfold lr_w. rewrite (@window_full _ xs i p 0) by lia. apply points_tab. Qed.

Lemma lr_div_pos : INR p * (INR p - 1) * (1 / 2) * (INR p * (INR p - 1) * (1 / 2)) - INR p * (INR p * (INR p - 1) * (2 * INR p - 1) / 6) <> 0.
Proof.
  assert (2 <= INR p) by (change 2 with (INR 2); apply le_INR; lia).
  replace (INR p * (INR p - 1) * (1 / 2) * (INR p * (INR p - 1) * (1 / 2)) - INR p * (INR p * (INR p - 1) * (2 * INR p - 1) / 6))
    with (- (INR p * INR p * (INR p * INR p - 1)) / 12) by field.
  assert (0 < INR p * INR p) by nra.
  assert (0 < INR p * INR p * (INR p * INR p - 1)) by (apply Rmult_lt_0_compat; nra). lra.
Qed.

Lemma lr_slope_eq i : (p <= S i)%nat -> (i < length xs)%nat ->
  slope (lr_w i) =
  (INR p * sxy (S i - p)%nat - INR p * (INR p - 1) * (1 / 2) * sy (S i - p)%nat) /
  (INR p * (INR p - 1) * (1 / 2) * (INR p * (INR p - 1) * (1 / 2)) - INR p * (INR p * (INR p - 1) * (2 * INR p - 1) / 6)).
Proof.
  intros H1 H2. rewrite lr_w_tab by assumption. set (o := (S i - p)%nat).
  unfold slope. rewrite tab_length. unfold Sxy, Sx, Sy, Sxx. rewrite !map_tab, !Rsum_tab. cbn [fst snd].
  rewrite sum_idx2, (sumf_ext (fun k => INR k) INR) by reflexivity. rewrite sum_idx.
  assert (E : sxy o = (INR p - 1) * sy o - sumf (fun k => INR k * x (o + k)%nat) p).
  { rewrite <- sumf_scal, <- sumf_minus. apply sumf_ext. intros; lra. }
  rewrite E. pose proof lr_div_pos as HD.
  set (A := sy o). set (B := sumf (fun k => INR k * x (o + k)%nat) p).
  set (D := INR p * (INR p - 1) * (1 / 2) * (INR p * (INR p - 1) * (1 / 2)) - INR p * (INR p * (INR p - 1) * (2 * INR p - 1) / 6)) in *.
  replace (INR p * (INR p * (INR p - 1) * (2 * INR p - 1) / 6) - INR p * (INR p - 1) / 2 * (INR p * (INR p - 1) / 2)) with (- D)
    by (unfold D; field).
  clearbody D. field. exact HD.
Qed.

Lemma lr_ls i : (p <= S i)%nat -> (i < length xs)%nat -> least_squares (intercept (lr_w i)) (slope (lr_w i)) (lr_w i).
Proof.
  intros H1 H2. rewrite lr_w_tab by assumption.
  apply (@least_squares_line _ (INR 0, x (S i - p + 0)%nat) (INR 1, x (S i - p + 1)%nat)).
  - apply in_map_iff. exists 0%nat. split; [reflexivity|]. apply in_seq; lia.
  - apply in_map_iff. exists 1%nat. split; [reflexivity|]. apply in_seq; lia.
  - cbn. lra.
Qed.

Lemma lr_intercept_eq i : (p <= S i)%nat -> (i < length xs)%nat ->
  intercept (lr_w i) = (sy (S i - p)%nat - slope (lr_w i) * (INR p * (INR p - 1) * (1 / 2))) / INR p.
Proof.
  intros H1 H2. unfold intercept. set (s := slope (lr_w i)). rewrite lr_w_tab by assumption.
  rewrite tab_length. unfold Sx, Sy. rewrite !map_tab, !Rsum_tab. cbn [fst snd].
  rewrite (sumf_ext (fun k => INR k) INR) by reflexivity. rewrite sum_idx. f_equal. f_equal. f_equal. field.
Qed.

Lemma lr_init_exact : lr_init (N := XR) (fins xs) (Z.of_nat p) = Ok (Fin (sy 0%nat), Fin (sxy 0%nat)).
Proof.
  unfold lr_init. destruct (Z.ltb_spec (Z.of_nat p) 0); [lia|].
  change 0%Z with (Z.of_nat 0).
  rewrite (@for_nat _ (fun i => (Fin (sumf (fun k => x (0 + k)%nat) i) : @F XR, Fin (sumf (fun k => (INR p - 1 - INR k) * x (0 + k)%nat) i) : @F XR)) 0 p).
  - reflexivity.
  - lia.
  - reflexivity.
  - intros i Hi. rewrite fins_get by lia. cbn [bind sumf]. xr.
    rewrite !minus_IZR, !IZR_INR. reflexivity.
Qed.

Definition lr_out (out : F (Num := XR) -> F (Num := XR) -> F (Num := XR)) (i : nat) : @F XR :=
  if (S i <? p)%nat then Fin 0 else out (Fin (slope (lr_w i))) (Fin (sy (S i - p)%nat)).

Lemma lr_loop_exact out :
  lr_loop (N := XR) out (fins xs) (Z.of_nat p) = Ok (tab (length xs) (lr_out out)).
Proof.
  unfold lr_loop. rewrite make_len; cbn [bind]. rewrite lr_init_exact; cbn [bind]. rewrite fins_length, fins_len.
  replace (Z.of_nat p - 1)%Z with (Z.of_nat (p - 1)) by lia.
  set (o := fun i => (i - p)%nat).
  rewrite (@for_nat _ (fun i => (Fin (sy (o i)) : @F XR, Fin (sxy (o i)) : @F XR, partial (@fzero XR) (lr_out out) (length xs) i)) (p - 1) (length xs)).
  - cbn [bind]. now rewrite partial_full.
  - lia.
  - unfold o. replace (p - 1 - p)%nat with 0%nat by lia. f_equal. apply partial_skips; [lia|].
    intros k Hk. unfold lr_out. destruct (Nat.ltb_spec (S k) p); [reflexivity|lia].
  - intros i Hi.
    assert (Estate : (if (Z.of_nat i >? Z.of_nat (p - 1))%Z
           then t2 <- get (fins xs) (Z.of_nat i - Z.of_nat p);; v <- get (fins xs) (Z.of_nat i);;
                Ok ((Fin (sy (o i)) : @F XR) +~ (v -~ t2), (Fin (sxy (o i)) : @F XR) +~ ((Fin (sy (o i)) : @F XR) -~ ofZ (Z.of_nat p) *~ t2))
           else Ok (Fin (sy (o i)) : @F XR, Fin (sxy (o i)) : @F XR)) = Ok (Fin (sy (o (S i))), Fin (sxy (o (S i))))).
    { destruct (Z.gtb_spec (Z.of_nat i) (Z.of_nat (p - 1))) as [H|H].
      - replace (Z.of_nat i - Z.of_nat p)%Z with (Z.of_nat (o i)) by (unfold o; lia).
        rewrite !fins_get by (unfold o; lia). cbn [bind]. xr. rewrite IZR_INR.
        assert (E : o (S i) = S (o i)) by (unfold o; lia). rewrite E, sy_step, sxy_step.
        replace (o i + p)%nat with i by (unfold o; lia). reflexivity.
      - replace (o (S i)) with (o i) by (unfold o; lia). reflexivity. }
    cbn beta zeta. rewrite Estate. cbn [bind].
    assert (Em : ((ofZ (Z.of_nat p) *~ (Fin (sxy (o (S i))) : @F XR) -~ lr_sumX (Z.of_nat p) *~ (Fin (sy (o (S i))) : @F XR)) /~ lr_divisor (Z.of_nat p)) = Fin (slope (lr_w i))).
    { unfold lr_divisor, lr_sumX, lr_sumXSqr. cbn [lit XR]. xr.
      rewrite (@xr_div _ 6) by lra. xr. rewrite !IZR_INR.
      replace (IZR 1 / IZR 2) with (1 / 2) by reflexivity.
      rewrite xr_div by apply lr_div_pos. f_equal. symmetry. apply lr_slope_eq; lia. }
    rewrite Em. rewrite partial_set; [reflexivity|lia|].
    unfold lr_out. destruct (Nat.ltb_spec (S i) p); [lia|]. reflexivity.
Qed.
End LR.

Lemma lr_tables (p : nat) xs : (2 <= p)%nat -> (p <= length xs)%nat ->
  exists b m : nat -> R,
    (forall i, (p <= S i)%nat -> (i < length xs)%nat -> least_squares (b i) (m i) (points (window xs i p))) /\
    LinearRegSlope (N := XR) (fins xs) (Z.of_nat p) =
      Ok (tab (length xs) (fun i => if (S i <? p)%nat then Fin 0 else Fin (m i))) /\
    LinearRegIntercept (N := XR) (fins xs) (Z.of_nat p) =
      Ok (tab (length xs) (fun i => if (S i <? p)%nat then Fin 0 else Fin (b i))) /\
    LinearReg (N := XR) (fins xs) (Z.of_nat p) =
      Ok (tab (length xs) (fun i => if (S i <? p)%nat then Fin 0 else Fin (b i + m i * (INR p - 1)))) /\
    LinearRegAngle (N := XR) (fins xs) (Z.of_nat p) =
      Ok (tab (length xs) (fun i => if (S i <? p)%nat then Fin 0 else Fin (atan (m i) * (180 / PI)))).
Proof.
  intros Hp Hl. exists (fun i => intercept (lr_w p xs i)), (fun i => slope (lr_w p xs i)).
  assert (Hn : INR p <> 0) by (apply INR_nz; lia).
  split; [intros; now apply lr_ls|].
  unfold LinearRegSlope, LinearRegIntercept, LinearReg, LinearRegAngle.
  repeat split; rewrite lr_loop_exact by assumption; f_equal; apply tab_ext; intros i Hi;
    unfold lr_out; destruct (Nat.ltb_spec (S i) p); try reflexivity.
  - rewrite lr_intercept_eq by (auto; lia). unfold lr_sumX. cbn [lit XR]. xr. rewrite !IZR_INR.
    rewrite xr_div by exact Hn. reflexivity.
  - rewrite lr_intercept_eq by (auto; lia). unfold lr_sumX. cbn [lit XR]. xr. rewrite !IZR_INR.
    rewrite xr_div by exact Hn. reflexivity.
  - cbn [fatan fpi XR]. xr. rewrite xr_div by (pose proof PI_RGT_0; lra). xr. reflexivity.
Qed.

Lemma lr_panic {N : Num} out xs p : (p <= 0 \/ len xs < p)%Z -> lr_loop out xs p = Panic.
Proof.
  intros H. unfold lr_loop. rewrite make_len; cbn [bind]. unfold lr_init.
  destruct (Z.ltb_spec p 0); [reflexivity|]. pose proof (len_nonneg xs).
  destruct H as [H|H].
  - replace p with 0%Z by lia. rewrite for_empty by lia. cbn [bind].
    rewrite for_first_panic; [reflexivity|lia|].
    destruct (Z.gtb_spec (0 - 1) (0 - 1)); [lia|]. cbn [bind].
    rewrite set_out by (left; lia). reflexivity.
  - rewrite (@for_panic_at _ (fun _ _ => True) 0 (len xs) p); [reflexivity|lia|exact I| |].
    + intros i [s1 s2] Hi _. destruct (@get_in_range _ xs i) as [v ->]; [lia|]. cbn [bind]. eauto.
    + intros [s1 s2] _. rewrite get_out by (right; lia). reflexivity.
Qed.

(** ** utils/regression.go *)
Section Gen.
Context {N : Num}.
Notation fl := (list F).

Fixpoint sums_upto (x y : fl) (i : nat) : sums4 :=
  match i with O => s4_zero | S j => s4_add (sums_upto x y j) (nth j x fzero) (nth j y fzero) end.

Lemma LeastSquare_gen (x y : fl) : (length x <= length y)%nat ->
  LeastSquare x y = Ok (s4_line (ofZ (len x)) (sums_upto x y (length x))).
Proof.
  intros H. unfold LeastSquare.
  rewrite (@for_nat0 _ (sums_upto x y)); [reflexivity|reflexivity|].
  intros i Hi. rewrite (@get_nat _ x i fzero), (@get_nat _ y i fzero) by lia. reflexivity.
Qed.

Lemma LeastSquare_panic (x y : fl) : (length y < length x)%nat -> LeastSquare x y = Panic.
Proof.
  intros H. unfold LeastSquare.
  rewrite (@for_panic_at _ (fun _ _ => True) 0 (len y) (len x)); [reflexivity| |exact I| |].
  - unfold len; lia.
  - intros i s Hi _. destruct (@get_in_range _ x i) as [v ->]; [unfold len in *; lia|].
    destruct (@get_in_range _ y i) as [w ->]; [unfold len in *; lia|]. cbn [bind]. eauto.
  - intros s _. destruct (@get_in_range _ x (len y)) as [v ->]; [unfold len in *; lia|].
    rewrite get_out by (right; lia). reflexivity.
Qed.

Fixpoint msums (p : nat) (x y : fl) (i : nat) : sums4 :=
  match i with
  | O => s4_zero
  | S j => let s := s4_add (msums p x y j) (nth j x fzero) (nth j y fzero) in
           if (p <=? j)%nat then s4_sub s (nth (j - p) x fzero) (nth (j - p) y fzero) else s
  end.
Definition mline (p : nat) (x y : fl) (i : nat) : F * F :=
  s4_line (ofZ (if (p <=? i)%nat then Z.of_nat p else Z.of_nat i + 1)) (msums p x y (S i)).

Lemma MovingLeastSquare_gen (p : nat) (x y : fl) : (length x <= length y)%nat ->
  MovingLeastSquare (Z.of_nat p) x y =
  Ok (tab (length x) (fun i => fst (mline p x y i)), tab (length x) (fun i => snd (mline p x y i))).
Proof.
  intros H. unfold MovingLeastSquare. rewrite !make_len; cbn [bind].
  rewrite (@for_nat0 _ (fun i => (msums p x y i, partial fzero (fun i => fst (mline p x y i)) (length x) i,
                                  partial fzero (fun i => snd (mline p x y i)) (length x) i)) F x).
  - cbn [bind]. now rewrite !partial_full.
  - now rewrite !partial_0.
  - intros i Hi. rewrite (@get_nat _ x i fzero), (@get_nat _ y i fzero) by lia. cbn [bind].
    assert (E : (if Z.of_nat i >=? Z.of_nat p
      then xo <- get x (Z.of_nat i - Z.of_nat p);; yo <- get y (Z.of_nat i - Z.of_nat p);;
           Ok (s4_sub (s4_add (msums p x y i) (nth i x fzero) (nth i y fzero)) xo yo, ofZ (Z.of_nat p))
      else Ok (s4_add (msums p x y i) (nth i x fzero) (nth i y fzero), ofZ (Z.of_nat i + 1)))%Z
      = Ok (msums p x y (S i), ofZ (if (p <=? i)%nat then Z.of_nat p else (Z.of_nat i + 1)%Z))).
    { cbn [msums]. destruct (Z.geb_spec (Z.of_nat i) (Z.of_nat p)); destruct (Nat.leb_spec p i); try lia; [|reflexivity].
      replace (Z.of_nat i - Z.of_nat p)%Z with (Z.of_nat (i - p)) by lia.
      rewrite (@get_nat _ x _ fzero), (@get_nat _ y _ fzero) by lia. reflexivity. }
    cbn beta zeta. rewrite E. cbn [bind]. fold (mline p x y i).
    destruct (mline p x y i) as [mi bi] eqn:Em.
    rewrite partial_set by (auto; now rewrite Em). cbn [bind].
    rewrite partial_set by (auto; now rewrite Em). reflexivity.
Qed.

Lemma MovingLeastSquare_neg p (x y : fl) : (p < 0)%Z -> x <> [] -> MovingLeastSquare p x y = Panic.
Proof.
  intros Hp Hx. unfold MovingLeastSquare. rewrite !make_len; cbn [bind].
  rewrite for_last_panic; [reflexivity|now apply len_pos|].
  intros [[s m] b]. destruct (get x (len x - 1)); cbn [bind]; [|reflexivity].
  destruct (get y (len x - 1)); cbn [bind]; [|reflexivity]. apply len_pos in Hx.
  destruct (Z.geb_spec (len x - 1) p); [|lia].
  rewrite get_out by (right; lia). reflexivity.
Qed.

Lemma LinearRegression_gen (x y : fl) m b : LeastSquare x y = Ok (m, b) ->
  LinearRegressionUsingLeastSquare x y = Ok (tab (length x) (fun i => m *~ nth i x fzero +~ b)).
Proof.
  intros E. unfold LinearRegressionUsingLeastSquare. rewrite E; cbn [bind]. rewrite make_len; cbn [bind].
  apply fill_loop0. intros i Hi. rewrite (@get_nat _ x i fzero) by lia. cbn [bind]. now apply partial_set.
Qed.

Lemma MovingLinearRegression_gen (p : nat) (x y : fl) : (length x <= length y)%nat ->
  MovingLinearRegressionUsingLeastSquare (Z.of_nat p) x y =
  Ok (tab (length x) (fun i => fst (mline p x y i) *~ nth i x fzero +~ snd (mline p x y i))).
Proof.
  intros H. unfold MovingLinearRegressionUsingLeastSquare. rewrite MovingLeastSquare_gen by exact H; cbn [bind].
  rewrite make_len; cbn [bind].
  apply fill_loop0. intros i Hi. rewrite !get_nat with (d := fzero) by (rewrite ?tab_length; lia). cbn [bind].
  rewrite !tab_nth by exact Hi. now apply partial_set.
Qed.
End Gen.

(** exact sums *)
Definition s4_fin (l : list (R * R)) : sums4 (N := XR) := (Fin (Sx l), Fin (Sxx l), Fin (Sy l), Fin (Sxy l)).

Lemma s4_add_fin l a b : s4_add (N := XR) (s4_fin l) (Fin a) (Fin b) = s4_fin (l ++ [(a, b)]).
Proof.
  unfold s4_fin, s4_add. xr. unfold Sx, Sxx, Sy, Sxy. rewrite !map_app, !Rsum_app. cbn [map fst snd].
  rewrite !Rsum_cons, !Rsum_nil, !Rplus_0_r. reflexivity.
Qed.
Lemma s4_sub_fin l a b : s4_sub (N := XR) (s4_fin ((a, b) :: l)) (Fin a) (Fin b) = s4_fin l.
Proof.
  unfold s4_fin, s4_sub. xr. unfold Sx, Sxx, Sy, Sxy. cbn [map fst snd].
  rewrite !Rsum_cons.
  assert (E : forall u v : R, u + v - u = v) by (intros; lra). rewrite !E. reflexivity.
Qed.
Lemma s4_line_fin l a b : In a l -> In b l -> fst a <> fst b ->
  s4_line (N := XR) (Fin (INR (length l))) (s4_fin l) = (Fin (slope l), Fin (intercept l)).
Proof.
  intros Ha Hb Hab. pose proof (spread_pos l a b Ha Hb Hab) as HD.
  unfold s4_fin, s4_line. xr. rewrite xr_div by lra. xr.
  rewrite xr_div by (apply INR_nz; destruct l; [destruct Ha|cbn; lia]). reflexivity.
Qed.

Lemma combine_nth_lt A B (x : list A) (y : list B) i dx dy : (i < length x)%nat -> (i < length y)%nat ->
  nth i (combine x y) (dx, dy) = (nth i x dx, nth i y dy).
Proof.
  revert y i; induction x as [|a x IH]; intros y i H1 H2; [cbn in H1; lia|].
  destruct y as [|b y]; [cbn in H2; lia|]. destruct i as [|i]; [reflexivity|]. cbn in *. apply IH; lia.
Qed.

Lemma sums_upto_exact x y i : (i <= length x)%nat -> (length x <= length y)%nat ->
  sums_upto (N := XR) (fins x) (fins y) i = s4_fin (firstn i (combine x y)).
Proof.
  induction i as [|i IH]; intros Hi Hl.
  - reflexivity.
  - cbn [sums_upto]. rewrite IH by lia. rewrite xr_zero, !fins_nth, s4_add_fin. f_equal.
    rewrite (@firstn_S_nth _ (combine x y) i (0, 0)) by (rewrite combine_length; lia).
    rewrite combine_nth_lt by lia. reflexivity.
Qed.

Lemma LeastSquare_exact x y : (length x <= length y)%nat ->
  forall i j, (i < length x)%nat -> (j < length x)%nat -> nth i x 0 <> nth j x 0 ->
  exists m b, LeastSquare (N := XR) (fins x) (fins y) = Ok (Fin m, Fin b) /\
    least_squares b m (combine x y).
Proof.
  intros Hl i j Hi Hj Hd. rewrite LeastSquare_gen by (rewrite !fins_length; lia).
  rewrite fins_length, sums_upto_exact, firstn_all2 by (rewrite ?combine_length; lia).
  assert (Ei : In (nth i (combine x y) (0, 0)) (combine x y)) by (apply nth_In; rewrite combine_length; lia).
  assert (Ej : In (nth j (combine x y) (0, 0)) (combine x y)) by (apply nth_In; rewrite combine_length; lia).
  assert (Hne : fst (nth i (combine x y) (0, 0)) <> fst (nth j (combine x y) (0, 0))).
  { rewrite !combine_nth_lt by lia. exact Hd. }
  exists (slope (combine x y)), (intercept (combine x y)). split.
  - f_equal. rewrite xr_ofZ, fins_len, IZR_INR.
    replace (length x) with (length (combine x y)) by (rewrite combine_length; lia).
    apply (@s4_line_fin _ _ _ Ei Ej Hne).
  - apply (@least_squares_line _ _ _ Ei Ej Hne).
Qed.

Lemma window_S A (l : list A) i p d : (S i < length l)%nat ->
  window l (S i) p = (if (p <=? S i)%nat then tl (window l i p ++ [nth (S i) l d]) else window l i p ++ [nth (S i) l d]).
Proof.
  intros H. unfold window. rewrite (@firstn_S_nth _ l (S i) d) by lia.
  destruct (Nat.leb_spec p (S i)).
  - rewrite <- (firstn_skipn (S i - p) (firstn (S i) l)) at 1. rewrite <- app_assoc.
    rewrite skipn_app. rewrite firstn_length, firstn_length.
    replace (S (S i) - p - Nat.min (S i - p) (Nat.min (S i) (length l)))%nat with 1%nat by lia.
    rewrite skipn_all2 by (rewrite !firstn_length; lia). cbn [app].
    destruct (skipn (S i - p) (firstn (S i) l) ++ [nth (S i) l d]); reflexivity.
  - replace (S (S i) - p)%nat with 0%nat by lia. replace (S i - p)%nat with 0%nat by lia. reflexivity.
Qed.

Lemma msums_exact p x y i : (1 <= p)%nat -> (i < length x)%nat -> (length x <= length y)%nat ->
  msums (N := XR) p (fins x) (fins y) (S i) = s4_fin (window (combine x y) i p).
Proof.
  intros Hp. induction i as [|i IH]; intros Hi Hl; cbn [msums].
  - destruct (Nat.leb_spec p 0); [lia|]. rewrite xr_zero, !fins_nth.
    change s4_zero with (s4_fin []). rewrite s4_add_fin. f_equal.
    unfold window. replace (1 - p)%nat with 0%nat by lia. cbn [skipn app].
    rewrite (@firstn_S_nth _ (combine x y) 0 (0, 0)) by (rewrite combine_length; lia).
    rewrite combine_nth_lt by lia. reflexivity.
  - fold (msums (N := XR) p (fins x) (fins y) (S i)). cbn [msums] in IH. rewrite IH by lia.
    rewrite xr_zero, !fins_nth, s4_add_fin.
    rewrite (@window_S _ _ i p (0, 0)) by (rewrite combine_length; lia).
    rewrite combine_nth_lt by lia.
    destruct (Nat.leb_spec p (S i)); [|reflexivity].
    set (w := window (combine x y) i p).
    assert (Hw : w = nth (S i - p) (combine x y) (0, 0) :: tl w).
    { unfold w. rewrite (@window_full _ _ i p (0, 0)) by (rewrite ?combine_length; lia).
      destruct p as [|p]; [lia|]. unfold tab. cbn [seq map tl].
      rewrite Nat.add_0_r. reflexivity. }
    rewrite Hw. cbn [app tl]. rewrite combine_nth_lt by lia. apply s4_sub_fin.
Qed.

Lemma mline_exact p x y i : (1 <= p)%nat -> (i < length x)%nat -> (length x <= length y)%nat ->
  forall j k, (S i <= j + p)%nat -> (j <= i)%nat -> (S i <= k + p)%nat -> (k <= i)%nat -> nth j x 0 <> nth k x 0 ->
  exists m b, mline (N := XR) p (fins x) (fins y) i = (Fin m, Fin b) /\
    least_squares b m (window (combine x y) i p).
Proof.
  intros Hp Hi Hl j k Hj1 Hj2 Hk1 Hk2 Hd. unfold mline. rewrite msums_exact by assumption.
  set (w := window (combine x y) i p).
  assert (Lw : length w = Nat.min (S i) p) by (apply window_length; rewrite combine_length; lia).
  assert (K : forall t, (S i <= t + p)%nat -> (t <= i)%nat -> exists q, In q w /\ fst q = nth t x 0).
  { intros t H1 H2. exists (nth t (combine x y) (0, 0)). split.
    - replace (nth t (combine x y) (0,0)) with (nth (t - (S i - Nat.min (S i) p)) w (0, 0)).
      + apply nth_In. lia.
      + unfold w. rewrite window_nth by (rewrite ?combine_length; lia). f_equal. lia.
    - rewrite combine_nth_lt by lia. reflexivity. }
  destruct (K j Hj1 Hj2) as (qj & Ij & Ej). destruct (K k Hk1 Hk2) as (qk & Ik & Ek).
  assert (Hne : fst qj <> fst qk) by congruence.
  exists (slope w), (intercept w). split.
  - rewrite xr_ofZ. replace (IZR (if (p <=? i)%nat then Z.of_nat p else Z.of_nat i + 1)) with (INR (length w)).
    + apply (@s4_line_fin _ _ _ Ij Ik Hne).
    + rewrite Lw, <- IZR_INR. f_equal. destruct (Nat.leb_spec p i); lia.
  - apply (@least_squares_line _ _ _ Ij Ik Hne).
Qed.

Lemma window_length_eq A (l : list A) i p : (i < length l)%nat -> length (window l i p) = Nat.min p (S i).
Proof. intros H. unfold window. rewrite skipn_length, firstn_length. lia. Qed.

Lemma In_window_nth A (l : list A) i p u d : (i < length l)%nat -> In u (window l i p) ->
  exists j, (S i <= j + p)%nat /\ (j <= i)%nat /\ nth j l d = u.
Proof.
  intros Hi H. apply In_nth with (d := d) in H as (k & Hk & <-).
  rewrite window_length_eq in Hk by exact Hi.
  exists (S i - p + k)%nat. split; [lia|]. split; [lia|].
  unfold window. rewrite nth_skipn. rewrite nth_firstn_lt by lia. reflexivity.
Qed.

Lemma MovingLeastSquare_exact (p : nat) (x y : list R) : (1 <= p)%nat -> (length x <= length y)%nat ->
  exists ms bs, MovingLeastSquare (N := XR) (Z.of_nat p) (fins x) (fins y) = Ok (ms, bs) /\
    length ms = length x /\ length bs = length x /\
    forall i, (i < length x)%nat ->
    forall u v, In u (window x i p) -> In v (window x i p) -> u <> v ->
    exists m b, nth i ms fzero = Fin m /\ nth i bs fzero = Fin b /\
      least_squares b m (window (combine x y) i p).
Proof.
  intros Hp Hl. do 2 eexists. split; [apply MovingLeastSquare_gen; rewrite !fins_length; exact Hl|].
  rewrite !tab_length, !fins_length. split; [reflexivity|]. split; [reflexivity|].
  intros i Hi u v Hu Hv Huv.
  destruct (@In_window_nth _ x i p u 0 Hi Hu) as (j & J1 & J2 & <-).
  destruct (@In_window_nth _ x i p v 0 Hi Hv) as (k & K1 & K2 & <-).
  destruct (@mline_exact p x y i Hp Hi Hl j k J1 J2 K1 K2 Huv) as (m & b & E & LS).
  exists m, b. rewrite !tab_nth by exact Hi. rewrite E. auto.
Qed.

Lemma regression_values {N : Num} (p : nat) (x y : list F) : (length x <= length y)%nat ->
  (exists m b, LeastSquare x y = Ok (m, b) /\
     LinearRegressionUsingLeastSquare x y = Ok (tab (length x) (fun i => m *~ nth i x fzero +~ b))) /\
  (exists ms bs, MovingLeastSquare (Z.of_nat p) x y = Ok (ms, bs) /\
     MovingLinearRegressionUsingLeastSquare (Z.of_nat p) x y =
     Ok (tab (length x) (fun i => nth i ms fzero *~ nth i x fzero +~ nth i bs fzero))).
Proof.
  intros Hl. split.
  - pose proof (@LeastSquare_gen N x y Hl) as E.
    destruct (s4_line (ofZ (len x)) (sums_upto x y (length x))) as [m b].
    exists m, b. split; [exact E|]. now apply LinearRegression_gen.
  - do 2 eexists. split; [apply MovingLeastSquare_gen; exact Hl|].
    rewrite MovingLinearRegression_gen by exact Hl. f_equal. apply tab_ext. intros i Hi.
    now rewrite !tab_nth by exact Hi.
Qed.
