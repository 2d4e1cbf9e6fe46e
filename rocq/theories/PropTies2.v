(** * PropTies2: property C106 for the Donchian channel, whose edges are highest and lowest closes. *)
From Coq Require Import Reals Lra ZArith Lia Bool List PeanoNat SpecFloat.
From Flocq Require Mult_error.
From Verif Require Import Base Num B64 XReal Order OrderMore Rounding FloatLaws FloatOrder RSum Containers Ta TaTools TaAvg SpecTa Sides Klines Lits
  IndBase IndTrend IndChannel IndOsc IndVolume IndAll IndTools IndForms IndForms2 IndForms4 IndFormsSpec IndBounds SpecInd SpecInd2 SpecNum FloatError PropFloat IndLife IndSides IndTimes IndSignals CrashSides
  PropInd1 PropInd3 SpecFlat PropFlat PropFlat2 PropFlat3 SpecTies NearTools PropTies TaOrd.
Import ListNotations.
Set Implicit Arguments.
Open Scope Z_scope.
Local Notation C kl := (fun i => cClose (cn kl i)).
Local Notation rows kl g := (Ok (tab (length kl) (fun i => mkRow (tm kl i) (g i)))).

(** ** The highest and the lowest of equal numbers are equal *)
Lemma Forall2_firstn A B (P : A -> B -> Prop) l l' : Forall2 P l l' -> forall n, Forall2 P (firstn n l) (firstn n l').
Proof. induction 1; intros [|n]; cbn; constructor; auto. Qed.
Lemma Forall2_skipn A B (P : A -> B -> Prop) l l' : Forall2 P l l' -> forall n, Forall2 P (skipn n l) (skipn n l').
Proof. induction 1; intros [|n]; cbn; auto. Qed.
Lemma Forall2_window A B (P : A -> B -> Prop) l l' i p : Forall2 P l l' -> Forall2 P (window l i p) (window l' i p).
Proof. intros H. unfold window. apply Forall2_skipn, Forall2_firstn, H. Qed.
Lemma Forall2_left A B (P : A -> B -> Prop) l l' x : Forall2 P l l' -> In x l -> exists y, In y l' /\ P x y.
Proof. induction 1 as [|a b l l' H _ IH]; cbn; [tauto|]. intros [<-|Hx]; [exists b; auto|]. destruct (IH Hx) as (y & Hy & Q). exists y. auto. Qed.
Lemma Forall2_right A B (P : A -> B -> Prop) l l' y : Forall2 P l l' -> In y l' -> exists x, In x l /\ P x y.
Proof. induction 1 as [|a b l l' H _ IH]; cbn; [tauto|]. intros [<-|Hx]; [exists a; auto|]. destruct (IH Hx) as (x & Hy & Q). exists x. auto. Qed.
Lemma eq_fin h y : SFeqb h y = true -> fin y -> fin h /\ val h = val y.
Proof.
  intros E [V Fy]. unfold SFeqb in E. destruct h as [s|s| |s m e], y as [s'|s'| |s' m' e']; cbn in E, Fy; try destruct s; try destruct s'; try discriminate.
  all: try (split; [split; reflexivity|reflexivity]).
  all: revert E; destruct (Z.compare_spec e e') as [<-|?|?]; cbn; try discriminate; destruct (Pos.compare_cont Eq m m') eqn:Q; try discriminate; intros _; change (Pos.compare_cont Eq m m') with (Pos.compare m m') in Q; apply Pos.compare_eq in Q; subst m'; (split; [split; [exact V|reflexivity]|reflexivity]).
Qed.
Lemma close0 L M (x : @F (B64 L)) a : close M 0 x a -> fin x /\ a = Fin (val x) /\ (Rabs (val x) <= M)%R.
Proof.
  intros (s & Fx & -> & H1 & H2). assert (E : val x = s). { destruct (Req_dec (val x - s) 0) as [Q|Q]; [lra|]. pose proof (Rabs_pos_lt _ Q). lra. }
  rewrite E. auto.
Qed.
Lemma max_close L M (m : @F (B64 L)) (m' : @F XR) l l' : Forall2 (close M 0) l l' -> max_of m l -> max_of m' l' -> close M 0 m m'.
Proof.
  intros HF [(x & Hx & Ex) Tx] [(y & Hy & Ey) Ty]. destruct (Forall2_left _ HF Hx) as (a & Ha & Ca), (Forall2_right _ HF Hy) as (b & Hb & Cb).
  apply close0 in Ca as (Fx & -> & Mx). apply close0 in Cb as (Fb & -> & Mb). destruct (@eq_fin _ _ Ex Fx) as [Fm Vm].
  specialize (Tx b Hb). specialize (Ty _ Ha). cbn [fle B64] in Tx. rewrite le_val in Tx by assumption. cbn in Ey, Ty. destruct m' as [r| | |]; try discriminate. cbn in Ey, Ty.
  destruct (Reqb_spec r (val b)); try discriminate. subst r. destruct (Rleb_spec (val x) (val b)); try discriminate. destruct (Rleb_spec (val b) (val m)); try discriminate.
  exists (val b). split; [exact Fm|]. split; [reflexivity|]. split; [|exact Mb]. replace (val m) with (val b) by lra. rewrite Rminus_diag_eq, Rabs_R0 by reflexivity. lra.
Qed.
Lemma min_close L M (m : @F (B64 L)) (m' : @F XR) l l' : Forall2 (close M 0) l l' -> min_of m l -> min_of m' l' -> close M 0 m m'.
Proof.
  intros HF [(x & Hx & Ex) Tx] [(y & Hy & Ey) Ty]. destruct (Forall2_left _ HF Hx) as (a & Ha & Ca), (Forall2_right _ HF Hy) as (b & Hb & Cb).
  apply close0 in Ca as (Fx & -> & Mx). apply close0 in Cb as (Fb & -> & Mb). destruct (@eq_fin _ _ Ex Fx) as [Fm Vm].
  specialize (Tx b Hb). specialize (Ty _ Ha). cbn [fle B64] in Tx. rewrite le_val in Tx by assumption. cbn in Ey, Ty. destruct m' as [r| | |]; try discriminate. cbn in Ey, Ty.
  destruct (Reqb_spec r (val b)); try discriminate. subst r. destruct (Rleb_spec (val b) (val x)); try discriminate. destruct (Rleb_spec (val m) (val b)); try discriminate.
  exists (val b). split; [exact Fm|]. split; [reflexivity|]. split; [|exact Mb]. replace (val m) with (val b) by lra. rewrite Rminus_diag_eq, Rabs_R0 by reflexivity. lra.
Qed.

(** ** The middle of two such numbers *)
(** the middle of a number and itself is that number *)
Lemma rnd_double (x : spec_float) : fin x -> rnd (2 * val x) = (2 * val x)%R.
Proof.
  intros H. apply Generic_fmt.round_generic; [apply Generic_fmt.valid_rnd_N|]. replace (2 * val x)%R with (val x * Raux.bpow Zaux.radix2 1)%R by (cbn; ring).
  apply (Mult_error.mult_bpow_pos_exact_FLT Zaux.radix2 (SpecFloat.emin 53 1024) 53); [exact (val_format H)|lia].
Qed.
Lemma mid_self L M (x y z : @F (B64 L)) a b c : (0 <= M <= 2 ^ 960)%R -> close M 0 x a -> close M 0 y b -> close M 0 z c -> a = c -> b = c ->
  val z = val ((x +~ y) *~ (ofZ 1 /~ ofZ 2)) /\ c = (a +~ b) *~ (ofZ 1 /~ ofZ 2).
Proof.
  intros HM Hx Hy Hz Ea Eb. apply close0 in Hx as (Fx & -> & Mx), Hy as (Fy & -> & My), Hz as (Fz & -> & Mz). injection Ea as Ea. injection Eb as Eb.
  split; [|rewrite half_xr; cbn; apply (f_equal Fin); lra]. destruct (half_val L) as [Fh Vh].
  assert (D : rnd (val x + val y) = (2 * val z)%R).
  { rewrite Ea, Eb. replace (val z + val z)%R with (2 * val z)%R by ring. apply rnd_double. exact Fz. }
  destruct big_split as (B & B1 & EB & Hb). rewrite <- EB in HM.
  assert (BH : (2 * M < huge)%R). { apply Rlt_trans with (big); [lra|]. unfold big, huge. apply Raux.bpow_lt. lia. }
  assert (Mh : (Rabs (2 * val z) < huge)%R) by (rewrite Rabs_mult, (Rabs_pos_eq 2) by lra; lra).
  destruct (@add_val x y Fx Fy ltac:(rewrite D; exact Mh)) as [Fs Vs]. rewrite D in Vs.
  assert (E : (val (SFadd 53 1024 x y) * val (@ofZ (B64 L) 1 /~ ofZ 2))%R = val z) by (rewrite Vs, Vh; field).
  destruct (@mul_val (SFadd 53 1024 x y) (@ofZ (B64 L) 1 /~ ofZ 2) Fs Fh) as [Fm Vm].
  - rewrite E, (rnd_val Fz). lra.
  - rewrite E, (rnd_val Fz) in Vm. symmetry. exact Vm.
Qed.

(** ** The channel *)
Lemma ch_closes L M kl ke : same_chart (L := L) M kl ke -> Forall2 (close (L := L) M 0) (map (fun c => cClose c) kl) (map (fun c => cClose c) ke).
Proof. intros H. induction H as [|k e l l' H _ IH]; cbn [map]; constructor; [apply same_close, H|exact IH]. Qed.
Lemma close_nonan L M (l : list (@F (B64 L))) l' : Forall2 (close M 0) l l' -> no_nan l /\ no_nan l'.
Proof.
  intros H. split; induction H as [|x a l l' H _ IH]; constructor; try exact IH; apply close0 in H as (Fx & -> & _); [|reflexivity]. destruct Fx as [_ Fx]. destruct x; try discriminate; reflexivity.
Qed.
Lemma window0 A (l : list A) p : (1 <= p)%nat -> window l 0 p = firstn 1 l.
Proof. intros Hp. unfold window. replace (1 - p)%nat with 0%nat by lia. reflexivity. Qed.
Theorem C106_Donchian (L : MathLib) (p : Z) (M : R) kl ke : 1 <= p -> (0 <= M <= 2 ^ 960)%R -> same_chart (L := L) M kl ke ->
  exists rf rx sf sx, rows_of I_Donchian p kl = Ok rf /\ rows_of I_Donchian p ke = Ok rx /\ sides_of I_Donchian p kl = Ok sf /\ sides_of I_Donchian p ke = Ok sx /\
    length rx = length kl /\ length sf = length kl /\ length sx = length kl /\
    rows_near (L := L) (fun v => bUpper v) (fun v => bUpper v) 0 rf rx /\ rows_near (L := L) (fun v => bLower v) (fun v => bLower v) 0 rf rx /\
    rows_near (L := L) (fun v => bMiddle v) (fun v => bMiddle v) (grain M) rf rx /\
    forall i, off_middle (grain M) ke rx i -> off_middle (grain M) ke rx (pred i) -> nth_error sf i = nth_error sx i.
Proof.
  intros H1 HM Hch. pose proof (ch_len Hch) as Le. pose proof (ch_closes Hch) as HF. destruct (close_nonan HF) as [Nf Nx].
  destruct (@Donchian_T _ (B64_ord L) p kl H1 Nf) as (uf & lf & Uf & Lf & Ef). destruct (@Donchian_T _ XR_ord p ke H1 Nx) as (ux & lx & Ux & Lx & Ex). rewrite Le in Ex.
  set (gf := fun i => mkBand (uf i) ((uf i +~ lf i) *~ (ofZ 1 /~ ofZ 2)) (lf i)) in *. set (gx := fun i => mkBand (ux i) ((ux i +~ lx i) *~ (ofZ 1 /~ ofZ 2)) (lx i)) in *.
  assert (A : forall i, (i < length kl)%nat -> close M 0 (uf i) (ux i)) by (intros i Hi; eapply max_close; [|exact (Uf i Hi)|apply Ux; lia]; now apply Forall2_window).
  assert (B : forall i, (i < length kl)%nat -> close M 0 (lf i) (lx i)) by (intros i Hi; eapply min_close; [|exact (Lf i Hi)|apply Lx; lia]; now apply Forall2_window).
  assert (D : forall i, (i < length kl)%nat -> close M (grain M) (bMiddle (gf i)) (bMiddle (gx i))) by (intros i Hi; apply (mid_close HM (A i Hi) (B i Hi))).
  destruct (@both_sidesN _ I_Donchian p _ kl _ ltac:(in_all) ltac:(no_proj) eq_refl Ef ltac:(apply tab_length)) as (sf & Sf & Lsf).
  destruct (@both_sidesN _ I_Donchian p _ ke _ ltac:(in_all) ltac:(no_proj) eq_refl Ex ltac:(rewrite tab_length; congruence)) as (sx & Sx & Lsx).
  eexists _, _, sf, sx. split; [exact Ef|]. split; [exact Ex|]. split; [exact Sf|]. split; [exact Sx|]. split; [apply tab_length|]. split; [exact Lsf|]. split; [congruence|].
  split; [eapply tab_rows_near; exact A|]. split; [eapply tab_rows_near; exact B|]. split; [eapply tab_rows_near; exact D|]. intros i Ci Cp.
  pose proof (ch_close Hch) as K.
  eapply (@agree L I_Donchian I_Donchian p p); [apply C64_Donchian|apply C64_Donchian|unfold skips_first; cbn [In]; tauto|unfold skips_first; cbn [In]; tauto|no_proj|no_proj|exact Le|exact Ef|exact Ex|exact Sf|exact Sx|exact Lsf|congruence|].
  intros Hi. assert (HP : (pred i < length kl)%nat) by lia. assert (H0 : (0 < length kl)%nat) by lia.
  assert (S0 : val (C kl 0%nat) = val (bMiddle (gf 0%nat)) /\ C ke 0%nat = bMiddle (gx 0%nat)).
  { eapply (mid_self HM (A _ H0) (B _ H0) (K _ H0)).
    - specialize (Ux 0%nat ltac:(lia)). rewrite window0 in Ux by lia. pose proof (K _ H0) as Q. apply close0 in Q as (_ & Q & _). rewrite Q. destruct ke as [|e0 ke']; [cbn in Le; lia|]. cbn in Ux, Q. destruct Ux as [(y & [<-|[]] & Ey) _].
      unfold cn in Q. cbn in Q. rewrite Q in Ey. destruct (ux 0%nat) as [r| | |]; try discriminate. cbn in Ey. match type of Ey with Reqb ?a ?b = true => destruct (Reqb_spec a b) as [Er|]; [apply (f_equal Fin); exact Er|discriminate] end.
    - specialize (Lx 0%nat ltac:(lia)). rewrite window0 in Lx by lia. pose proof (K _ H0) as Q. apply close0 in Q as (_ & Q & _). rewrite Q. destruct ke as [|e0 ke']; [cbn in Le; lia|]. cbn in Lx, Q. destruct Lx as [(y & [<-|[]] & Ey) _].
      unfold cn in Q. cbn in Q. rewrite Q in Ey. destruct (lx 0%nat) as [r| | |]; try discriminate. cbn in Ey. match type of Ey with Reqb ?a ?b = true => destruct (Reqb_spec a b) as [Er|]; [apply (f_equal Fin); exact Er|discriminate] end. }
  destruct S0 as [V0 E0].
  destruct (@off_alike L M (grain M) ke _ (tm ke) gx (C kl) (fun i => bMiddle (gf i)) i (proj2 Hi) K D V0 E0 Ci) as [Z1 Z2].
  destruct (@off_alike L M (grain M) ke _ (tm ke) gx (C kl) (fun i => bMiddle (gf i)) (pred i) HP K D V0 E0 Cp) as [Z3 Z4].
  cbn [bMiddle gf gx] in *. rewrite Z1, Z2, Z3, Z4. tauto.
Qed.
Print Assumptions C106_Donchian.


(** ** The Ichimoku cloud *)
Section Ichi.
Context {N : Num} (O : OrdLaws N).
Definition halfwayN (u l : nat -> F) (i : nat) : F := (u i +~ l i) *~ (ofZ 1 /~ ofZ 2).
Lemma mid_line_N a b (kl : list Candle) : no_nan (map (fun k => cHigh k) kl) -> no_nan (map (fun k => cLow k) kl) -> 1 <= a -> 1 <= b ->
  exists u l, mid_line a b (tab (length kl) (fun i => cHigh (cn kl i))) (tab (length kl) (fun i => cLow (cn kl i))) = Ok (tab (length kl) (halfwayN u l)) /\
    tops (fun k => cHigh k) a kl u /\ bottoms (fun k => cLow k) b kl l.
Proof.
  intros Hh Hl Ha Hb. destruct (@Max_K N O (fun k => cHigh k) a kl Ha Hh) as (u & Eu & Hu), (@Min_K N O (fun k => cLow k) b kl Hb Hl) as (l & El & Hl').
  exists u, l. unfold mid_line. rewrite Eu. cbn [bind]. rewrite El. cbn [bind]. rewrite Add_T. cbn [bind]. rewrite DivideBy_T. now split.
Qed.
Definition ichiN (p : IchiP) (kl : list Candle) (u1 l1 u2 l2 u3 l3 : nat -> F) (i : nat) : IchiV :=
  mkIchiV (halfwayN u1 l1 i) (halfwayN u2 l2 i) ((halfwayN u1 l1 i +~ halfwayN u2 l2 i) *~ (ofZ 1 /~ ofZ 2)) (halfwayN u3 l3 i)
    (if (i <? Z.to_nat (icLag p))%nat then ofZ 0 else cClose (cn kl (i - Z.to_nat (icLag p)))).
Lemma Ichimoku_N (p : IchiP) (kl : list Candle) : no_nan (map (fun k => cHigh k) kl) -> no_nan (map (fun k => cLow k) kl) -> 1 <= icConv p -> 1 <= icSpanB p -> 0 <= icLag p ->
  exists u1 l1 u2 l2 u3 l3, rows_of I_Ichimoku p kl = rows kl (ichiN p kl u1 l1 u2 l2 u3 l3) /\
  (tops (fun k => cHigh k) 9 kl u1 /\ bottoms (fun k => cLow k) (icConv p) kl l1) /\ (tops (fun k => cHigh k) 26 kl u2 /\ bottoms (fun k => cLow k) 26 kl l2) /\
  (tops (fun k => cHigh k) (icSpanB p) kl u3 /\ bottoms (fun k => cLow k) (icSpanB p) kl l3).
Proof.
  intros Hh Hl Hc Hb Hg. destruct (@mid_line_N 9 (icConv p) kl Hh Hl ltac:(lia) Hc) as (u1 & l1 & E1 & M1), (@mid_line_N 26 26 kl Hh Hl ltac:(lia) ltac:(lia)) as (u2 & l2 & E2 & M2), (@mid_line_N _ _ kl Hh Hl Hb Hb) as (u3 & l3 & E3 & M3).
  exists u1, l1, u2, l2, u3, l3. split; [|auto].
  T_start I_Ichimoku ichi_calc. rewrite E1. cbn [bind]. rewrite E2. cbn [bind]. T_steps. rewrite E3. cbn [bind]. unfold ShiftRight. T_steps.
  T_append (ichiN p kl u1 l1 u2 l2 u3 l3).
Qed.
End Ichi.
Lemma ch_col L M kl ke (g : Candle (N := B64 L) -> @F (B64 L)) (h : Candle (N := XR) -> @F XR) : (forall k e, same_candle M k e -> same_price M (g k) (h e)) -> same_chart (L := L) M kl ke -> Forall2 (close (L := L) M 0) (map g kl) (map h ke).
Proof. intros Hg H. induction H as [|k e l l' H _ IH]; cbn [map]; constructor; [apply same_close, Hg, H|exact IH]. Qed.
Lemma halfway_close L M p q kl ke (uf lf : nat -> @F (B64 L)) (ux lx : nat -> @F XR) : (0 <= M <= 2 ^ 960)%R -> same_chart (L := L) M kl ke ->
  tops (fun k => cHigh k) p kl uf -> bottoms (fun k => cLow k) q kl lf -> tops (fun k => cHigh k) p ke ux -> bottoms (fun k => cLow k) q ke lx ->
  forall i, (i < length kl)%nat -> close M (grain M) (halfwayN uf lf i) (halfwayN ux lx i).
Proof.
  intros HM Hch Uf Lf Ux Lx i Hi. pose proof (ch_len Hch) as Le. apply mid_close; [exact HM| |].
  - eapply max_close; [|exact (Uf i Hi)|apply Ux; lia]. apply Forall2_window. apply ch_col; [intros k e H; apply H|exact Hch].
  - eapply min_close; [|exact (Lf i Hi)|apply Lx; lia]. apply Forall2_window. apply ch_col; [intros k e H; apply H|exact Hch].
Qed.
(** the middle of two numbers that carry one grain of error each *)
Lemma mid2_close L M (x y : @F (B64 L)) (a b : @F XR) : (0 <= M <= 2 ^ 960)%R -> close M (grain M) x a -> close M (grain M) y b ->
  close M (2 * grain M) ((x +~ y) *~ (ofZ 1 /~ ofZ 2)) ((a +~ b) *~ (ofZ 1 /~ ofZ 2)).
Proof.
  intros HM Hx Hy. destruct (half_val L) as [Fh Vh]. rewrite half_xr. rewrite grain_u in *. pose proof u_pos as Pu. pose proof (proj1 tiny_1) as T. pose proof tiny_2 as T2. destruct big_split as (B & B1 & EB & Hb). rewrite <- EB in HM.
  assert (U : (u <= / 1000)%R) by (unfold u; lra). assert (UM : (0 <= u * M)%R) by (apply Rmult_le_pos; lra). assert (UUM : (u * (u * M) <= / 1000 * (u * M))%R) by (apply Rmult_le_compat_r; lra).
  assert (UB : (u * M <= / 1000 * M)%R) by (apply Rmult_le_compat_r; lra). assert (UT : (0 <= u * tiny <= / 1000 * tiny)%R) by (split; [apply Rmult_le_pos; lra|apply Rmult_le_compat_r; lra]).
  assert (U3 : (u * (u * (u * M)) <= / 1000 * (u * (u * M)))%R) by (apply Rmult_le_compat_r; [repeat apply Rmult_le_pos; lra|lra]).
  assert (U4 : (u * (u * tiny) <= / 1000 * (u * tiny))%R) by (apply Rmult_le_compat_r; lra).
  eapply close_le; [apply (@close_scale L _ (/ 2) _ _ _ _ Fh Vh ltac:(lra) (@close_add L _ _ _ _ _ _ _ _ Hx Hy ltac:(lra)))|..].
  - rewrite Hb. lra.
  - lra.
  - lra.
Qed.
(** at bar [i] the price is more than [e] away from the line [g] *)
Definition off_line (g : IchiV (N := XR) -> @F XR) (e : R) (ke : list (Candle (N := XR))) (rx : list (row (IchiV (N := XR)))) (i : nat) : Prop :=
  exists k w r s, nth_error ke i = Some k /\ nth_error rx i = Some w /\ cClose k = (Fin r : @F XR) /\ g (rVal w) = (Fin s : @F XR) /\ (e < Rabs (r - s))%R.
Lemma line_alike L M e (g : IchiV (N := XR) -> @F XR) (ke : list (Candle (N := XR))) n (t : nat -> Z) (b : nat -> IchiV (N := XR)) (x y : nat -> @F (B64 L)) i : (i < n)%nat ->
  (forall i, (i < n)%nat -> close M 0 (x i) (C ke i)) -> (forall i, (i < n)%nat -> close M e (y i) (g (b i))) -> off_line g e ke (tab n (fun i => mkRow (t i) (b i))) i ->
  (x i <~ y i) = (C ke i <~ g (b i)) /\ (y i <~ x i) = (g (b i) <~ C ke i).
Proof.
  intros Hi Hx Hy (k & w & r & s & Hk & Hw & Er & Es & Hr). apply tab_some in Hw as [_ ->]. cbn [rVal] in Es. apply cn_some in Hk. subst k.
  split; eapply close_lt; try exact (Hx i Hi); try exact (Hy i Hi); intros a c Ea Ec; rewrite Ea in *; rewrite Ec in *; injection Er as <-; injection Es as <-; [lra|].
  replace (a - c)%R with (- (c - a))%R by ring. rewrite Rabs_Ropp. lra.
Qed.
Theorem C106_Ichimoku (L : MathLib) (p : IchiP) (M : R) kl ke : 1 <= icConv p -> 1 <= icSpanB p -> 0 <= icLag p -> (0 <= M <= 2 ^ 960)%R -> same_chart (L := L) M kl ke ->
  exists rf rx sf sx, rows_of I_Ichimoku p kl = Ok rf /\ rows_of I_Ichimoku p ke = Ok rx /\ sides_of I_Ichimoku p kl = Ok sf /\ sides_of I_Ichimoku p ke = Ok sx /\
    length rx = length kl /\ length sf = length kl /\ length sx = length kl /\
    rows_near (L := L) (fun v => iConv v) (fun v => iConv v) (grain M) rf rx /\ rows_near (L := L) (fun v => iBase v) (fun v => iBase v) (grain M) rf rx /\
    rows_near (L := L) (fun v => iSpanA v) (fun v => iSpanA v) (2 * grain M) rf rx /\ rows_near (L := L) (fun v => iSpanB v) (fun v => iSpanB v) (grain M) rf rx /\
    rows_near (L := L) (fun v => iLag v) (fun v => iLag v) 0 rf rx /\
    forall i, icConv p <= Z.of_nat i -> (forall j, j = i \/ j = pred i -> off_line (fun v => iSpanA v) (2 * grain M) ke rx j /\ off_line (fun v => iSpanB v) (grain M) ke rx j) ->
      nth_error sf i = nth_error sx i.
Proof.
  intros H1 H2 H3 HM Hch. pose proof (ch_len Hch) as Le.
  destruct (close_nonan (@ch_col L M kl ke (fun k => cHigh k) (fun k => cHigh k) (fun k e H => proj1 (proj2 (proj2 H))) Hch)) as [Hf Hx].
  destruct (close_nonan (@ch_col L M kl ke (fun k => cLow k) (fun k => cLow k) (fun k e H => proj1 (proj2 (proj2 (proj2 H)))) Hch)) as [Lf Lx].
  destruct (@Ichimoku_N _ (B64_ord L) p kl Hf Lf H1 H2 H3) as (a1 & b1 & a2 & b2 & a3 & b3 & Ef & [A1 B1] & [A2 B2] & [A3 B3]).
  destruct (@Ichimoku_N _ XR_ord p ke Hx Lx H1 H2 H3) as (c1 & d1 & c2 & d2 & c3 & d3 & Ex & [C1 D1] & [C2 D2] & [C3 D3]). rewrite Le in Ex.
  pose proof (halfway_close HM Hch A1 B1 C1 D1) as Q1. pose proof (halfway_close HM Hch A2 B2 C2 D2) as Q2. pose proof (halfway_close HM Hch A3 B3 C3 D3) as Q3.
  set (gf := ichiN p kl a1 b1 a2 b2 a3 b3) in *. set (gx := ichiN p ke c1 d1 c2 d2 c3 d3) in *.
  assert (QA : forall i, (i < length kl)%nat -> close M (2 * grain M) (iSpanA (gf i)) (iSpanA (gx i))) by (intros i Hi; exact (mid2_close HM (Q1 i Hi) (Q2 i Hi))).
  assert (QB : forall i, (i < length kl)%nat -> close M (grain M) (iSpanB (gf i)) (iSpanB (gx i))) by exact Q3.
  pose proof (ch_close Hch) as K.
  assert (QL : forall i, (i < length kl)%nat -> close M 0 (iLag (gf i)) (iLag (gx i))).
  { intros i Hi. cbn [iLag gf gx ichiN]. destruct (i <? Z.to_nat (icLag p))%nat; [|apply K; lia]. destruct (@ofZ_val 0) as [F0 V0]; [cbn; lia|]. exists 0%R. split; [exact F0|]. split; [reflexivity|].
    cbn [ofZ B64]. rewrite V0, Rminus_diag_eq, Rabs_R0 by reflexivity. lra. }
  destruct (@both_sidesN _ I_Ichimoku p _ kl _ ltac:(in_all) ltac:(no_proj) eq_refl Ef ltac:(apply tab_length)) as (sf & Sf & Lsf).
  destruct (@both_sidesN _ I_Ichimoku p _ ke _ ltac:(in_all) ltac:(no_proj) eq_refl Ex ltac:(rewrite tab_length; congruence)) as (sx & Sx & Lsx).
  eexists _, _, sf, sx. split; [exact Ef|]. split; [exact Ex|]. split; [exact Sf|]. split; [exact Sx|]. split; [apply tab_length|]. split; [exact Lsf|]. split; [congruence|].
  split; [eapply tab_rows_near; exact Q1|]. split; [eapply tab_rows_near; exact Q2|]. split; [eapply tab_rows_near; exact QA|]. split; [eapply tab_rows_near; exact QB|]. split; [eapply tab_rows_near; exact QL|].
  intros i Hc Ho. destruct (Nat.lt_ge_cases i (length kl)) as [Hi|Hi]; [|rewrite !(proj2 (nth_error_None _ _)) by lia; reflexivity].
  assert (HP : (pred i < length kl)%nat) by lia.
  assert (KK : forall j, (j < length kl)%nat -> nth_error kl j = Some (cn kl j) /\ nth_error ke j = Some (cn ke j)) by (intros j Hj; split; apply nth_error_nth'; lia).
  destruct (nth_error sf i) as [x|] eqn:E1; [|apply nth_error_None in E1; lia]. destruct (nth_error sx i) as [y|] eqn:E2; [|apply nth_error_None in E2; lia]. f_equal.
  destruct (KK i Hi) as [K1 K2], (KK (pred i) HP) as [K3 K4].
  pose proof (@C64_Ichimoku _ p kl _ sf Ef Sf i _ _ _ _ x Hc ltac:(lia) K1 K3 (tab_nth_error _ Hi) (tab_nth_error _ HP) E1) as G1.
  pose proof (@C64_Ichimoku _ p ke _ sx Ex Sx i _ _ _ _ y Hc ltac:(lia) K2 K4 (tab_nth_error _ Hi) (tab_nth_error _ HP) E2) as G2.
  cbn [rVal] in G1, G2. destruct (Ho i (or_introl eq_refl)) as [OA OB], (Ho (pred i) (or_intror eq_refl)) as [PA PB].
  destruct (@line_alike L M _ (fun v => iSpanA v) ke _ (tm ke) gx (C kl) (fun i => iSpanA (gf i)) _ Hi K QA OA) as [Z1 Z2]. destruct (@line_alike L M _ (fun v => iSpanB v) ke _ (tm ke) gx (C kl) (fun i => iSpanB (gf i)) _ Hi K QB OB) as [Z3 Z4].
  destruct (@line_alike L M _ (fun v => iSpanA v) ke _ (tm ke) gx (C kl) (fun i => iSpanA (gf i)) _ HP K QA PA) as [Z5 Z6]. destruct (@line_alike L M _ (fun v => iSpanB v) ke _ (tm ke) gx (C kl) (fun i => iSpanB (gf i)) _ HP K QB PB) as [Z7 Z8].
  cbv beta in Z1, Z2, Z3, Z4, Z5, Z6, Z7, Z8. rewrite Z1, Z2, Z3, Z4, Z5, Z6, Z7, Z8 in G1. refine (signal_same _ _ G1 G2); tauto.
Qed.
Print Assumptions C106_Ichimoku.

(** The hypotheses are met: closes 10 and 20; the middle of the second bar is 15, five away from the price. *)
Example C106_hyp_Donchian : exists kl ke rx, same_chart (L := ex_lib) 20 kl ke /\ length kl = 2%nat /\ rows_of I_Donchian 2 ke = Ok rx /\ off_middle (grain 20) ke rx 1 /\ off_middle (grain 20) ke rx 0.
Proof.
  set (bar := fun z => mkCandle (N := EX) (fz 0) 0 (fz z) (fz z) (fz z) (fz z) (fz 1) (fz 0) false 60).
  assert (V : forall z, (Z.abs z <= 20) -> fin (b_ofZ z) /\ val (b_ofZ z) = IZR z) by (intros z Hz; apply ofZ_val; lia).
  set (ke := map (exact_of (L := ex_lib)) [bar 10; bar 20]).
  assert (Hs : same_chart (L := ex_lib) 20 [bar 10; bar 20] ke).
  { apply exact_same. assert (AB : forall z, 0 <= z <= 20 -> Forall (fun x => fin x /\ (Rabs (val x) <= 20)%R) [b_ofZ z; b_ofZ z; b_ofZ z; b_ofZ z]).
    { intros z Hz. assert (AB : fin (b_ofZ z) /\ (Rabs (val (b_ofZ z)) <= 20)%R) by (destruct (V z ltac:(lia)) as [A ->]; split; [exact A|]; rewrite Rabs_pos_eq; [apply IZR_le; lia|apply IZR_le; lia]). exact (Forall_cons _ AB (Forall_cons _ AB (Forall_cons _ AB (Forall_cons _ AB (Forall_nil _))))). }
    apply Forall_cons; [apply (AB 10); lia|]. apply Forall_cons; [apply (AB 20); lia|]. apply Forall_nil. }
  assert (Ek : map (fun c => cClose c) ke = [Fin 10; Fin 20] :> list (@F XR)).
  { cbn [ke map exact_of bar cClose]. change (fz 10) with (b_ofZ 10). change (fz 20) with (b_ofZ 20). rewrite (proj2 (V 10 ltac:(lia))), (proj2 (V 20 ltac:(lia))). reflexivity. }
  destruct (close_nonan (ch_closes Hs)) as [_ Nx]. destruct (@Donchian_T _ XR_ord 2 ke ltac:(lia) Nx) as (ux & lx & Ux & Lx & Ex).
  exists [bar 10; bar 20], ke. eexists. split; [exact Hs|]. split; [reflexivity|]. split; [exact Ex|]. split; [right|left; reflexivity].
  assert (U1 : ux 1%nat = (Fin 20 : @F XR)).
  { specialize (Ux 1%nat ltac:(cbn; lia)). rewrite Ek in Ux. destruct Ux as [(y & Hy & Ey) T]. pose proof (T (Fin 20) (or_intror (or_introl eq_refl))) as Q. destruct Hy as [<-|[<-|[]]]; destruct (ux 1%nat) as [r| | |]; try discriminate; cbn in Ey, Q.
    - destruct (Reqb_spec r 10); [|discriminate]. destruct (Rleb_spec 20 r); [lra|discriminate].
    - destruct (Reqb_spec r 20) as [Er|]; [apply (f_equal Fin); exact Er|discriminate]. }
  assert (L1 : lx 1%nat = (Fin 10 : @F XR)).
  { specialize (Lx 1%nat ltac:(cbn; lia)). rewrite Ek in Lx. destruct Lx as [(y & Hy & Ey) T]. pose proof (T (Fin 10) (or_introl eq_refl)) as Q. destruct Hy as [<-|[<-|[]]]; destruct (lx 1%nat) as [r| | |]; try discriminate; cbn in Ey, Q.
    - destruct (Reqb_spec r 10) as [Er|]; [apply (f_equal Fin); exact Er|discriminate].
    - destruct (Reqb_spec r 20); [|discriminate]. destruct (Rleb_spec r 10); [lra|discriminate]. }
  exists (exact_of (bar 20)). do 3 eexists. split; [reflexivity|]. split; [apply tab_nth_error; cbn; lia|]. cbn [rVal bMiddle]. rewrite U1, L1, half_xr. split; [cbn [exact_of bar cClose]; change (fz 20) with (b_ofZ 20); rewrite (proj2 (V 20 ltac:(lia))); reflexivity|]. split; [cbn; reflexivity|].
  match goal with |- (_ < Rabs ?r)%R => replace r with 5%R by lra end. rewrite Rabs_pos_eq by lra. rewrite grain_u. pose proof tiny_2. unfold u. lra.
Qed.
Lemma xr_top (m : @F XR) l (r : R) : max_of m l -> In (Fin r) l -> Forall (fun x => exists s, x = Fin s /\ (s <= r)%R) l -> m = Fin r.
Proof.
  intros [(y & Hy & Ey) T] Hr Hl. rewrite Forall_forall in Hl. destruct (Hl y Hy) as (s & -> & Hs). pose proof (T _ Hr) as Q. destruct m as [q| | |]; try discriminate. cbn in Ey, Q.
  destruct (Reqb_spec q s); [|discriminate]. destruct (Rleb_spec r q); [|discriminate]. apply (f_equal Fin). lra.
Qed.
Lemma xr_bottom (m : @F XR) l (r : R) : min_of m l -> In (Fin r) l -> Forall (fun x => exists s, x = Fin s /\ (r <= s)%R) l -> m = Fin r.
Proof.
  intros [(y & Hy & Ey) T] Hr Hl. rewrite Forall_forall in Hl. destruct (Hl y Hy) as (s & -> & Hs). pose proof (T _ Hr) as Q. destruct m as [q| | |]; try discriminate. cbn in Ey, Q.
  destruct (Reqb_spec q s); [|discriminate]. destruct (Rleb_spec q r); [|discriminate]. apply (f_equal Fin). lra.
Qed.
(** Closes 10, 20, 10 with periods of two bars: both spans of the second and the third bar are 15. *)
Example C106_hyp_Ichimoku : exists p kl ke rx, 1 <= icConv p /\ 1 <= icSpanB p /\ 0 <= icLag p /\ same_chart (L := ex_lib) 20 kl ke /\ length kl = 3%nat /\ rows_of I_Ichimoku p ke = Ok rx /\
  icConv p <= Z.of_nat 2 /\ forall j, j = 2%nat \/ j = 1%nat -> off_line (fun v => iSpanA v) (2 * grain 20) ke rx j /\ off_line (fun v => iSpanB v) (grain 20) ke rx j.
Proof.
  set (bar := fun z => mkCandle (N := EX) (fz 0) 0 (fz z) (fz z) (fz z) (fz z) (fz 1) (fz 0) false 60). set (p := mkIchiP 2 2 1).
  assert (V : forall z, (Z.abs z <= 20) -> fin (b_ofZ z) /\ val (b_ofZ z) = IZR z) by (intros z Hz; apply ofZ_val; lia).
  set (kl := [bar 10; bar 20; bar 10]). set (ke := map (exact_of (L := ex_lib)) kl).
  assert (Hs : same_chart (L := ex_lib) 20 kl ke).
  { apply exact_same. assert (AB : forall z, 0 <= z <= 20 -> Forall (fun x => fin x /\ (Rabs (val x) <= 20)%R) [b_ofZ z; b_ofZ z; b_ofZ z; b_ofZ z]).
    { intros z Hz. assert (AB : fin (b_ofZ z) /\ (Rabs (val (b_ofZ z)) <= 20)%R) by (destruct (V z ltac:(lia)) as [A ->]; split; [exact A|]; rewrite Rabs_pos_eq; [apply IZR_le; lia|apply IZR_le; lia]). exact (Forall_cons _ AB (Forall_cons _ AB (Forall_cons _ AB (Forall_cons _ AB (Forall_nil _))))). }
    apply Forall_cons; [apply (AB 10); lia|]. apply Forall_cons; [apply (AB 20); lia|]. apply Forall_cons; [apply (AB 10); lia|]. apply Forall_nil. }
  assert (V1 : Fin (val (fz 10)) = (Fin 10 : @F XR)) by (change (fz 10) with (b_ofZ 10); rewrite (proj2 (V 10 ltac:(lia))); reflexivity).
  assert (V2 : Fin (val (fz 20)) = (Fin 20 : @F XR)) by (change (fz 20) with (b_ofZ 20); rewrite (proj2 (V 20 ltac:(lia))); reflexivity).
  assert (Eh : map (fun c => cHigh c) ke = [Fin 10; Fin 20; Fin 10] :> list (@F XR)) by (cbn [ke kl map exact_of bar cHigh]; rewrite V1, V2; reflexivity).
  assert (El : map (fun c => cLow c) ke = [Fin 10; Fin 20; Fin 10] :> list (@F XR)) by (cbn [ke kl map exact_of bar cLow]; rewrite V1, V2; reflexivity).
  destruct (close_nonan (@ch_col _ _ kl ke (fun k => cHigh k) (fun k => cHigh k) (fun k e H => proj1 (proj2 (proj2 H))) Hs)) as [_ Hx].
  destruct (close_nonan (@ch_col _ _ kl ke (fun k => cLow k) (fun k => cLow k) (fun k e H => proj1 (proj2 (proj2 (proj2 H)))) Hs)) as [_ Lx].
  destruct (@Ichimoku_N _ XR_ord p ke Hx Lx ltac:(cbn; lia) ltac:(cbn; lia) ltac:(cbn; lia)) as (c1 & d1 & c2 & d2 & c3 & d3 & Ex & [C1 D1] & [C2 D2] & [C3 D3]).
  assert (T : forall q u j, (j = 2 \/ j = 1)%nat -> 2 <= q -> tops (fun k => cHigh k) q ke u -> u j = (Fin 20 : @F XR)).
  { intros q u j Hj Hq Hu. assert (Hl : (j < length ke)%nat) by (cbn; lia). specialize (Hu j Hl). rewrite Eh in Hu. apply (xr_top Hu).
    - unfold window. destruct Hj as [-> | ->]; destruct (Z.to_nat q) as [|[|[|n]]] eqn:Eq; try lia; cbn; auto.
    - apply Forall_forall. intros y Hy. unfold window in Hy. apply TaOrd.skipn_In in Hy. apply TaOrd.firstn_In in Hy. destruct Hy as [<-|[<-|[<-|[]]]]; eexists; (split; [reflexivity|lra]). }
  assert (T' : forall q u j, (j = 2 \/ j = 1)%nat -> 2 <= q -> bottoms (fun k => cLow k) q ke u -> u j = (Fin 10 : @F XR)).
  { intros q u j Hj Hq Hu. assert (Hl : (j < length ke)%nat) by (cbn; lia). specialize (Hu j Hl). rewrite El in Hu. apply (xr_bottom Hu).
    - unfold window. destruct Hj as [-> | ->]; destruct (Z.to_nat q) as [|[|[|n]]] eqn:Eq; try lia; cbn; auto.
    - apply Forall_forall. intros y Hy. unfold window in Hy. apply TaOrd.skipn_In in Hy. apply TaOrd.firstn_In in Hy. destruct Hy as [<-|[<-|[<-|[]]]]; eexists; (split; [reflexivity|lra]). }
  exists p, kl, ke. eexists. split; [cbn; lia|]. split; [cbn; lia|]. split; [cbn; lia|]. split; [exact Hs|]. split; [reflexivity|]. split; [exact Ex|]. split; [cbn; lia|]. intros j Hj.
  assert (G : (2 * grain 20 < 5)%R) by (rewrite grain_u; pose proof tiny_2; unfold u; lra). assert (G0 : (0 < grain 20)%R) by (rewrite grain_u; pose proof (proj1 tiny_1); pose proof u_pos; lra).
  assert (Hl : (j < length ke)%nat) by (cbn; lia).
  assert (W : exists r, cClose (cn ke j) = (Fin r : @F XR) /\ Rabs (r - 15) = 5%R).
  { destruct Hj as [-> | ->]; cbn [ke kl map cn nth exact_of bar cClose]; [rewrite V1; exists 10%R|rewrite V2; exists 20%R]; (split; [reflexivity|]); [rewrite Rabs_left; lra|rewrite Rabs_pos_eq; lra]. }
  pose proof (T 9 c1 j Hj ltac:(lia) C1) as W1. pose proof (T 26 c2 j Hj ltac:(lia) C2) as W2. pose proof (T 2 c3 j Hj ltac:(lia) C3) as W3.
  pose proof (T' 2 d1 j Hj ltac:(lia) D1) as W4. pose proof (T' 26 d2 j Hj ltac:(lia) D2) as W5. pose proof (T' 2 d3 j Hj ltac:(lia) D3) as W6.
  destruct W as (r & Er & Hr).
  split; exists (cn ke j); eexists; exists r, 15%R; (split; [apply nth_error_nth'; exact Hl|]); (split; [apply tab_nth_error; exact Hl|]); (split; [exact Er|]); cbn [rVal ichiN iSpanA iSpanB]; unfold halfwayN;
  rewrite ?W1, ?W2, ?W3, ?W4, ?W5, ?W6, half_xr; (split; [cbn; apply (f_equal Fin); lra|lra]).
Qed.
