(** * MirrorTools: series of a chart and of its mirror image. *)
From Coq Require Import Reals Lra ZArith Lia Bool List PeanoNat.
From Verif Require Import Base Num XReal Order OrderMore FloatLaws FloatOrder FloatBounds SpecNum B64 Lits Containers Ta TaTools TaAvg TaRange TaStat SpecTa Sides Klines RSum XrMore
  IndBase IndTrend IndChannel IndOsc IndVolume IndTools IndForms IndForms2 IndForms3 IndForms4 IndForms5 IndFormsSpec IndBounds IndBounds2 IndExact TaDev TaReg SpecInd SpecInd2 SpecBar SpecMemory SpecMirror
  PropInd1 PropInd2 PropInd5 PropInd6 PropInd7 PropInd8 PropInd9 PropInd11 PropInd12 PropMemory ShiftTools PropShift.
Import ListNotations.
Set Implicit Arguments.
Open Scope Z_scope.
Local Notation C kl := (fun i => cClose (cn kl i)).
Local Notation H kl := (fun i => cHigh (cn kl i)).
Local Notation L kl := (fun i => cLow (cn kl i)).
Local Notation rows kl g := (Ok (tab (length kl) (fun i => mkRow (tm kl i) (g i)))).
Local Notation kline := (list (Candle (N := XR))).

(** ** Numbers that add up to a known amount *)
Definition nrel (w : R) (x y : @F XR) : Prop := exists r, x = Fin r /\ y = Fin (w - r).
Definition turned (w : R) (n : nat) (f g : nat -> @F XR) : Prop := forall j, (j < n)%nat -> nrel w (f j) (g j).
Lemma nrel_w a b x y : nrel a x y -> a = b -> nrel b x y.
Proof. now intros H ->. Qed.
Lemma nrel_flip a x y : nrel a x y -> y = (Fin a : @F XR) -~ x.
Proof. intros (r & -> & ->). reflexivity. Qed.
Lemma nrel_sym a x y : nrel a x y -> nrel a y x.
Proof. intros (r & -> & ->). exists (a - r)%R. split; [reflexivity|]. f_equal. lra. Qed.
Lemma nrel_add a b x x' y y' : nrel a x x' -> nrel b y y' -> nrel (a + b) (x +~ y) (x' +~ y').
Proof. intros (r & -> & ->) (s & -> & ->). exists (r + s)%R. split; [reflexivity|]. cbn. f_equal. lra. Qed.
Lemma nrel_sub a b x x' y y' : nrel a x x' -> nrel b y y' -> nrel (a - b) (x -~ y) (x' -~ y').
Proof. intros (r & -> & ->) (s & -> & ->). exists (r - s)%R. split; [reflexivity|]. cbn. f_equal. lra. Qed.
Lemma nrel_mulc a k x x' : nrel a x x' -> nrel (a * k) (x *~ (Fin k : @F XR)) (x' *~ (Fin k : @F XR)).
Proof. intros (r & -> & ->). exists (r * k)%R. split; [reflexivity|]. cbn. f_equal. lra. Qed.
Lemma nrel_divZ a k x x' : k <> 0 -> nrel a x x' -> nrel (a / IZR k) (x /~ ofZ k) (x' /~ ofZ k).
Proof.
  intros Hk (r & -> & ->). exists (r / IZR k)%R. assert (IZR k <> 0)%R by (now apply not_0_IZR). cbn.
  destruct (Reqb_spec (IZR k) 0) as [E|E]; [contradiction|]. split; [reflexivity|]. f_equal. field. assumption.
Qed.
(** a difference of two mirrored numbers is the reversed difference *)
Lemma sub_turn w x x' y y' : nrel w x x' -> nrel w y y' -> x' -~ y' = y -~ x.
Proof. intros (r & -> & ->) (s & -> & ->). cbn. f_equal. lra. Qed.
Lemma dif_turn w x x' y y' : nrel w x x' -> nrel w y y' -> x' +~ y' *~ ofZ (-1) = y +~ x *~ ofZ (-1).
Proof. intros (r & -> & ->) (s & -> & ->). cbn. f_equal. lra. Qed.
Lemma Rltb_turn a b w : Rltb (w - a) (w - b) = Rltb b a.
Proof. destruct (Rltb_spec (w - a) (w - b)), (Rltb_spec b a); auto; lra. Qed.
Lemma lt_turn w x x' y y' : nrel w x x' -> nrel w y y' -> (x' <~ y') = (y <~ x).
Proof. intros (r & -> & ->) (s & -> & ->). cbn. apply Rltb_turn. Qed.
Lemma eq_turn w x x' y y' : nrel w x x' -> nrel w y y' -> (x' ==~ y') = (x ==~ y).
Proof. intros (r & -> & ->) (s & -> & ->). cbn. destruct (Reqb_spec (w - r) (w - s)), (Reqb_spec r s); auto; lra. Qed.

(** ** Minus for numbers that may be infinite or NaN *)
Definition flip (a : R) (x : @F XR) : @F XR := (Fin a : @F XR) -~ x.
Definition neg (x : @F XR) : @F XR := xneg x.
Lemma flip0 x : flip 0 x = neg x.
Proof. unfold flip. destruct x as [r| | |]; cbn; auto. f_equal. lra. Qed.
Lemma neg_add (x y : @F XR) : neg x +~ neg y = neg (x +~ y).
Proof. destruct x, y; cbn; auto. f_equal. lra. Qed.
Lemma neg_sub (x y : @F XR) : neg x -~ neg y = neg (x -~ y).
Proof. destruct x, y; cbn; auto. f_equal. lra. Qed.
Lemma neg_inf a : inf_sgn (- a) = xneg (inf_sgn a).
Proof. unfold inf_sgn. destruct (Rltb_spec 0 a), (Rltb_spec 0 (- a)), (Rltb_spec a 0), (Rltb_spec (- a) 0); cbn; auto; lra. Qed.
Lemma xneg_xneg x : xneg (xneg x) = x.
Proof. destruct x; cbn; auto. f_equal. lra. Qed.
Lemma neg_mul (x y : @F XR) : x *~ neg y = neg (x *~ y).
Proof.
  unfold neg. destruct x as [a| | |], y as [b| | |]; cbn; auto; try (f_equal; lra);
  try (rewrite ?Ropp_involutive, (neg_inf a), ?xneg_xneg; reflexivity); try (rewrite ?Ropp_involutive, (neg_inf b), ?xneg_xneg; reflexivity).
Qed.
Lemma neg_mul_l (x y : @F XR) : neg x *~ y = neg (x *~ y).
Proof.
  unfold neg. destruct x as [a| | |], y as [b| | |]; cbn; auto; try (f_equal; lra);
  try (rewrite ?Ropp_involutive, (neg_inf a), ?xneg_xneg; reflexivity); try (rewrite ?Ropp_involutive, (neg_inf b), ?xneg_xneg; reflexivity).
Qed.
Lemma neg_div (x y : @F XR) : neg x /~ y = neg (x /~ y).
Proof.
  destruct x as [a| | |], y as [b| | |]; cbn; auto; try (destruct (Rltb _ _); reflexivity); try (f_equal; lra).
  destruct (Reqb_spec b 0); [apply neg_inf|]. cbn. f_equal. now field.
Qed.
Lemma neg_lt (x y : @F XR) : (neg x <~ neg y) = (y <~ x).
Proof. destruct x as [a| | |], y as [b| | |]; cbn; auto. destruct (Rltb_spec (- a) (- b)), (Rltb_spec b a); auto; lra. Qed.
Lemma neg_nan (x : @F XR) : isNaN (neg x) = isNaN x.
Proof. now destruct x. Qed.
Lemma neg_ema p f g n : (forall j, (j < n)%nat -> g j = neg (f j)) -> forall j, (j < n)%nat -> emaF (N := XR) p g j = neg (emaF p f j).
Proof. intros Hg j. induction j as [|j IH]; intros Hj; cbn [emaF]; [now apply Hg|]. rewrite IH, Hg by lia. now rewrite !neg_mul, neg_add, neg_div. Qed.
Lemma neg_run p f g n : (forall j, (j < n)%nat -> g j = neg (f j)) -> forall j, (j <= n)%nat -> runF (N := XR) p g j = neg (runF p f j).
Proof.
  intros Hg j. induction j as [|j IH]; intros Hj; cbn [runF]; [cbn; f_equal; lra|]. rewrite IH, Hg by lia. cbn zeta. destruct (_ <=? _)%nat.
  - now rewrite Hg, neg_add, neg_sub by lia.
  - apply neg_add.
Qed.

(** ** The mirrored chart *)
Section Chart.
Variables (c : R) (kl : kline).
Hypothesis Hr : real_candles kl.
Local Notation kl' := (map (mirrored c) kl).
Lemma cn_mir i : (i < length kl)%nat -> cn kl' i = mirrored c (cn kl i).
Proof. intros Hi. unfold cn. rewrite nth_indep with (d' := mirrored c (blank (N := XR) 0)) by (now rewrite map_length). apply map_nth. Qed.
Lemma mir_close : turned c (length kl) (C kl) (C kl').
Proof. intros j Hj. rewrite cn_mir by exact Hj. destruct (real_cn Hr Hj) as (b & _ & _ & _ & E & _). exists (bC b). cbn [mirrored cClose]. rewrite E. now split. Qed.
Lemma mir_high : turned c (length kl) (L kl) (H kl').
Proof. intros j Hj. rewrite cn_mir by exact Hj. destruct (real_cn Hr Hj) as (b & _ & _ & E & _). exists (bL b). cbn [mirrored cHigh]. rewrite E. now split. Qed.
Lemma mir_low : turned c (length kl) (H kl) (L kl').
Proof. intros j Hj. rewrite cn_mir by exact Hj. destruct (real_cn Hr Hj) as (b & _ & E & _). exists (bH b). cbn [mirrored cLow]. rewrite E. now split. Qed.
Lemma mir_volume j : (j < length kl)%nat -> cVolume (cn kl' j) = cVolume (cn kl j).
Proof. intros Hj. now rewrite cn_mir by exact Hj. Qed.
Lemma mir_real : real_candles kl'.
Proof.
  clear -Hr. destruct Hr as (bs & H). exists (map (fun b => mkBar (c - bO b) (c - bL b) (c - bH b) (c - bC b) (bV b)) bs).
  induction H as [|k b kl bs Hk H IH]; [constructor|]. constructor; [|apply IH; now exists bs]. destruct Hk as (H1 & H2 & H3 & H4 & H5). unfold is_bar, mirrored. cbn. rewrite H1, H2, H3, H4, H5. cbn. auto.
Qed.
End Chart.

(** ** Series *)
Lemma turned_ema p w n f g : 0 <= p -> turned w n f g -> turned w n (emaF p f) (emaF p g).
Proof.
  intros Hp H j. induction j as [|j IH]; intros Hj; cbn [emaF]; [now apply H|].
  destruct (IH ltac:(lia)) as (e & -> & ->), (H (S j) Hj) as (r & -> & ->).
  assert (IZR (p + 1) <> 0)%R by (apply not_0_IZR; lia). exists ((2 * r + IZR (p - 1) * e) / IZR (p + 1))%R. cbn.
  destruct (Reqb_spec (IZR (p + 1)) 0) as [E|E]; [contradiction|]. split; [reflexivity|]. f_equal. rewrite minus_IZR in *. rewrite plus_IZR in *. field. assumption.
Qed.
Lemma Rsum_turn w l : Rsum (map (fun x => w - x)%R l) = (INR (length l) * w - Rsum l)%R.
Proof. induction l as [|x l IH]; [unfold Rsum; cbn; lra|]. cbn [map length]. change (Rsum ((w - x)%R :: map (fun x => w - x)%R l)) with ((w - x) + Rsum (map (fun x => w - x) l))%R. change (Rsum (x :: l)) with (x + Rsum l)%R. rewrite IH, S_INR. lra. Qed.
Lemma mean_turn w l : l <> [] -> mean (map (fun x => w - x)%R l) = (w - mean l)%R.
Proof. intros Hl. unfold mean. rewrite Rsum_turn, map_length. assert (INR (length l) <> 0)%R by (apply not_0_INR; destruct l; [congruence|discriminate]). field. assumption. Qed.
Lemma mad_turn w l : mad (map (fun x => w - x)%R l) = mad l.
Proof. destruct l as [|x l]; [reflexivity|]. unfold mad. rewrite mean_turn by discriminate. rewrite map_map. f_equal. apply map_ext. intros y. rewrite <- Rabs_Ropp. f_equal. lra. Qed.
Lemma variance_turn w l : variance (map (fun x => w - x)%R l) = variance l.
Proof. destruct l as [|x l]; [reflexivity|]. unfold variance. rewrite mean_turn by discriminate. rewrite map_map. f_equal. apply map_ext. intros y. ring. Qed.
Lemma turned_reals w n f g : turned w n f g -> exists h, (forall j, (j < n)%nat -> f j = Fin (h j)) /\ (forall j, (j < n)%nat -> g j = Fin (w - h j)%R).
Proof. intros H. exists (fun j => val (f j)). split; intros j Hj; destruct (H j Hj) as (r & E & E'); rewrite ?E', E; reflexivity. Qed.
Lemma turned_sma p w n f g : (1 <= p)%nat -> turned w n f g -> turned w n (smaF p f) (smaF p g).
Proof.
  intros Hp H j Hj. destruct (turned_reals H) as (h & E1 & E2).
  rewrite (@smaF_exact p f h n j Hp Hj E1), (@smaF_exact p g (fun i => w - h i)%R n j Hp Hj E2).
  exists (mean (window (tab n h) j p)). split; [reflexivity|]. f_equal.
  rewrite <- (tabmap (fun x => w - x)%R n h), window_map. apply mean_turn. now apply window_tab_ne.
Qed.
(** the highest of the mirrored values mirrors the lowest *)
Lemma fins_turn c l : map (fun x => (Fin c : @F XR) -~ x) (fins l) = fins (map (fun x => c - x)%R l).
Proof. unfold fins. rewrite !map_map. reflexivity. Qed.
Lemma mir_map (q q' : Candle (N := XR) -> @F XR) c kl : (forall k, q' (mirrored c k) = (Fin c : @F XR) -~ q k) -> map q' (map (mirrored c) kl) = map (fun x => (Fin c : @F XR) -~ x) (map q kl).
Proof. intros Hq. rewrite !map_map. apply map_ext. exact Hq. Qed.
Lemma top_turn (q q' : Candle (N := XR) -> @F XR) p c (kl : kline) u u' : (forall k b, is_bar k b -> exists r, q k = Fin r) -> (forall k, q' (mirrored c k) = (Fin c : @F XR) -~ q k) -> real_candles kl ->
  bottoms q p kl u -> tops q' p (map (mirrored c) kl) u' -> turned c (length kl) u u'.
Proof.
  intros Hb Hq Hr T T' j Hj. specialize (T j Hj). specialize (T' j ltac:(now rewrite map_length)). rewrite (mir_map q q' c kl Hq), window_map in T'.
  destruct (@fins_of (window (map q kl) j (Z.to_nat p))) as (rs & E). { intros x Hx. apply window_In in Hx. eapply real_map; eauto. }
  rewrite E in T. rewrite E, fins_turn in T'. apply min_of_exact in T as (r & -> & I1 & U1). apply max_of_exact in T' as (r' & -> & I2 & U2).
  exists r. split; [reflexivity|]. f_equal. apply in_map_iff in I2 as (y & <- & Iy). apply Rle_antisym; [pose proof (U1 y Iy); lra|]. apply U2. now apply in_map with (f := fun x => (c - x)%R).
Qed.
Lemma bottom_turn (q q' : Candle (N := XR) -> @F XR) p c (kl : kline) u u' : (forall k b, is_bar k b -> exists r, q k = Fin r) -> (forall k, q' (mirrored c k) = (Fin c : @F XR) -~ q k) -> real_candles kl ->
  tops q p kl u -> bottoms q' p (map (mirrored c) kl) u' -> turned c (length kl) u u'.
Proof.
  intros Hb Hq Hr T T' j Hj. specialize (T j Hj). specialize (T' j ltac:(now rewrite map_length)). rewrite (mir_map q q' c kl Hq), window_map in T'.
  destruct (@fins_of (window (map q kl) j (Z.to_nat p))) as (rs & E). { intros x Hx. apply window_In in Hx. eapply real_map; eauto. }
  rewrite E in T. rewrite E, fins_turn in T'. apply max_of_exact in T as (r & -> & I1 & U1). apply min_of_exact in T' as (r' & -> & I2 & U2).
  exists r. split; [reflexivity|]. f_equal. apply in_map_iff in I2 as (y & <- & Iy). apply Rle_antisym; [|pose proof (U1 y Iy); lra]. apply U2. now apply in_map with (f := fun x => (c - x)%R).
Qed.
Lemma nums_turn c (q q' : Candle (N := XR) -> @F XR) (kl : kline) : (forall k b, is_bar k b -> exists r, q k = Fin r) -> (forall k b, is_bar k b -> q' (mirrored c k) = (Fin c : @F XR) -~ q k) -> real_candles kl ->
  nums q' (map (mirrored c) kl) = map (fun x => c - x)%R (nums q kl).
Proof.
  intros Hb Hq (bs & HB). unfold nums. rewrite !map_map. induction HB as [|k b kl bs Hk HB IH]; [reflexivity|]. cbn [map]. rewrite IH, (Hq _ _ Hk). destruct (Hb _ _ Hk) as (r & ->). reflexivity.
Qed.

(** ** From closed forms to the statements *)
Lemma mirrors_T (I : Indicator (N := XR)) (p : Param I) (f g : Val I -> @F XR) a k (P : kline -> (nat -> Val I) -> Prop) :
  (forall kl, real_candles kl -> (k <= length kl)%nat -> exists G, rows_of I p kl = rows kl G /\ P kl G) ->
  (forall c kl G G', real_candles kl -> P kl G -> P (map (mirrored c) kl) G' -> forall i, (k - 1 <= i < length kl)%nat -> g (G' i) = (Fin (a c) : @F XR) -~ f (G i)) ->
  mirrors I p f g a k.
Proof.
  intros HT HP c kl Hr Hk. destruct (HT kl Hr Hk) as (G & E & Pg). destruct (HT (map (mirrored c) kl)) as (G' & E' & Pg'); [now apply mir_real|now rewrite map_length|].
  eexists _, _. split; [exact E|]. split; [exact E'|]. split; [apply tab_length|]. rewrite map_length. unfold column. rewrite !tabmap. cbn [rVal].
  rewrite <- !(skipn_map (fun x => (Fin (a c) : @F XR) -~ x)), tabmap. apply list_ext. intros i. rewrite !nth_error_skipn.
  destruct (Nat.lt_ge_cases (k - 1 + i) (length kl)) as [Hi|Hi]; [|now rewrite !(proj2 (nth_error_None _ _)) by (rewrite tab_length; lia)].
  rewrite !nth_error_tab by exact Hi. f_equal. apply (HP c kl G G' Hr Pg Pg'). lia.
Qed.
Lemma mirrors_F (I : Indicator (N := XR)) (p : Param I) (f g : Val I -> @F XR) a (G : kline -> nat -> Val I) :
  (forall kl, rows_of I p kl = rows kl (G kl)) ->
  (forall c kl, real_candles kl -> turned (a c) (length kl) (fun i => f (G kl i)) (fun i => g (G (map (mirrored c) kl) i))) -> mirrors I p f g a 1.
Proof. intros HT HM. apply mirrors_T with (P := fun kl g => g = G kl). { intros kl _ _. eauto. } intros c kl G1 G2 Hr -> -> i Hi. apply nrel_flip. apply (HM c kl Hr). lia. Qed.
Lemma trades_T B (I : Indicator (N := XR)) (p : Param I) (f g : Val I -> B) (P : kline -> (nat -> Val I) -> Prop) :
  (forall kl, real_candles kl -> exists G, rows_of I p kl = rows kl G /\ P kl G) ->
  (forall c kl G G', real_candles kl -> P kl G -> P (map (mirrored c) kl) G' -> forall i, (i < length kl)%nat -> g (G' i) = f (G i)) ->
  trades_places I p f g.
Proof.
  intros HT HP c kl Hr. destruct (HT kl Hr) as (G & E & Pg). destruct (HT (map (mirrored c) kl)) as (G' & E' & Pg'); [now apply mir_real|].
  eexists _, _. split; [exact E|]. split; [exact E'|]. split; [apply tab_length|]. rewrite map_length. unfold column. rewrite !tabmap. cbn [rVal].
  apply tab_ext. intros i Hi. now apply (HP c kl G G').
Qed.
Lemma trades_F B (I : Indicator (N := XR)) (p : Param I) (f g : Val I -> B) (G : kline -> nat -> Val I) :
  (forall kl, rows_of I p kl = rows kl (G kl)) ->
  (forall c kl i, real_candles kl -> (i < length kl)%nat -> g (G (map (mirrored c) kl) i) = f (G kl i)) -> trades_places I p f g.
Proof. intros HT HM. apply trades_T with (P := fun kl g => g = G kl). { intros kl _. eauto. } intros c kl G1 G2 Hr -> -> i Hi. now apply HM. Qed.
