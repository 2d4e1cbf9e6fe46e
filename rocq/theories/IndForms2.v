(** * IndForms2: closed forms of the indicators with their own loops (any float arithmetic). *)
From Verif Require Import Base Num Order Containers Ta TaTools TaElem TaAvg TaOrd TaRange SpecTa Sides Klines
  KlineProofs3 IndBase IndTrend IndChannel IndVolume IndOsc IndAll IndTools IndForms.
Set Implicit Arguments.

Section Forms.
Context {N : Num}.
Local Notation C kl := (fun i => cClose (cn kl i)).
Local Notation H kl := (fun i => cHigh (cn kl i)).
Local Notation L kl := (fun i => cLow (cn kl i)).
Local Notation V kl := (fun i => cVolume (cn kl i)).
Local Notation rows kl g := (Ok (tab (length kl) (fun i => mkRow (tm kl i) (g i)))).

Lemma make_tab A (z : A) n : make z (Z.of_nat n) = Ok (repeat z n).
Proof. rewrite make_ok by lia. now rewrite Nat2Z.id. Qed.
Lemma fill_T A (z : A) (g : nat -> A) n (body : Z -> list A -> res (list A)) :
  (forall i, (i < n)%nat -> body (Z.of_nat i) (partial z g n i) = Ok (partial z g n (S i))) ->
  for_ 0 (Z.of_nat n) body (repeat z n) = Ok (tab n g).
Proof. intros Hb. change 0 with (Z.of_nat 0). apply fill_loop; try lia; auto. intros; apply Hb; lia. Qed.
Lemma Max_T (O : OrdLaws N) (p : Z) n f : 1 <= p -> no_nan (tab n f) ->
  exists m, Max p (tab n f) = Ok (tab n m) /\ forall i, (i < n)%nat -> max_of (m i) (window (tab n f) i (Z.to_nat p)).
Proof.
  intros Hp Hn. destruct (@Max_spec N O (Z.to_nat p) (tab n f)) as (r & E & Lr & Hr); [lia|exact Hn|].
  rewrite Z2Nat.id in E by lia. rewrite tab_length in *. exists (fun i => nth i r fzero).
  split; [|exact Hr]. rewrite E. f_equal. rewrite <- Lr. symmetry. symmetry. apply tab_of_list.
Qed.
Lemma Min_T (O : OrdLaws N) (p : Z) n f : 1 <= p -> no_nan (tab n f) ->
  exists m, Min p (tab n f) = Ok (tab n m) /\ forall i, (i < n)%nat -> min_of (m i) (window (tab n f) i (Z.to_nat p)).
Proof.
  intros Hp Hn. destruct (@Min_spec N O (Z.to_nat p) (tab n f)) as (r & E & Lr & Hr); [lia|exact Hn|].
  rewrite Z2Nat.id in E by lia. rewrite tab_length in *. exists (fun i => nth i r fzero).
  split; [|exact Hr]. rewrite E. f_equal. rewrite <- Lr. apply tab_of_list.
Qed.
Lemma percandle_T f kl : percandle f kl = Ok (tab (length kl) (fun i => f (cn kl i))).
Proof. rewrite percandle_spec. now rewrite cmap. Qed.
Lemma values_app_T A (f : A -> F) n (g : nat -> row A) : values_app f (tab n g) = Ok (tab n (fun i => f (rVal (g i)))).
Proof. rewrite values_app_spec. now rewrite tabmap. Qed.

Lemma Dema_T p n f : Dema p (tab n f) = Ok (tab n (fun i => emaF p f i *~ ofZ 2 +~ emaF p (emaF p f) i *~ ofZ (-1))).
Proof.
  unfold Dema. rewrite Ema_T. cbn [bind]. rewrite Ema_T. cbn [bind]. rewrite MultiplyBy_T. cbn [bind].
  rewrite Subtract_T. reflexivity.
Qed.
Lemma Dema_ind_T p kl : rows_of I_Dema p kl =
  rows kl (fun i => emaF p (C kl) i *~ ofZ 2 +~ emaF p (emaF p (C kl)) i *~ ofZ (-1)).
Proof.
  T_start I_Dema dema_calc. rewrite Dema_T. cbn [bind].
  T_make (fun i => emaF p (C kl) i *~ ofZ 2 +~ emaF p (emaF p (C kl)) i *~ ofZ (-1)).
Qed.

(** ** On-balance volume *)
Fixpoint obvF (c v : nat -> F) (i : nat) : F :=
  match i with
  | O => ofZ 0
  | S j => if c i >~ c j then obvF c v j +~ v i
           else if c i <~ c j then obvF c v j -~ v i
           else if c i ==~ c j then obvF c v j else fzero
  end.
Lemma Obv_T kl : rows_of I_Obv tt kl = rows kl (obvF (C kl) (V kl)).
Proof.
  T_start I_Obv obv_calc. unfold len. change 0 with (Z.of_nat 0).
  apply (@for_nat _ (fun k => tab k (fun i => mkRow (tm kl i) (obvF (C kl) (V kl) i)))); [lia|reflexivity|].
  intros i Hi. rewrite time_in_T by lia.
  destruct i as [|j].
  - cbn [Z.of_nat Z.sub Z.add Z.opp Z.pos_sub Z.eqb Pos.eqb bind]. rewrite tab_S. reflexivity.
  - destruct (Z.eqb_spec (Z.of_nat (S j) - 1) (-1)); [lia|].
    rewrite !get_tab by lia. cbn [bind]. rewrite !get_tabp by lia. cbn [bind Nat.pred]. rewrite (tab_S (S j)).
    cbn [obvF rVal]. destruct (C kl j <~ C kl (S j)); [reflexivity|]. destruct (C kl (S j) <~ C kl j); [reflexivity|].
    destruct (C kl (S j) ==~ C kl j); reflexivity.
Qed.

(** ** Negative volume index *)
Fixpoint nviF (c v : nat -> F) (i : nat) : F :=
  match i with
  | O => ofZ 1000
  | S j => if v j <~ v i then nviF c v j else nviF c v j +~ (((c i -~ c j) /~ c j) *~ nviF c v j)
  end.
Lemma get_partial A (z : A) g n i k : (i <= n)%nat -> (k < i)%nat -> get (partial z g n i) (Z.of_nat k) = Ok (g k).
Proof.
  intros Hi Hk. unfold partial. apply get_ok_iff. rewrite Nat2Z.id. split; [lia|].
  rewrite nth_error_app1 by (rewrite tab_length; lia). now apply tab_nth_error.
Qed.
Lemma get_partial_at A (z : A) g n i : (i < n)%nat -> get (partial z g n i) (Z.of_nat i) = Ok z.
Proof.
  intros Hi. unfold partial. apply get_ok_iff. rewrite Nat2Z.id. split; [lia|].
  rewrite nth_error_app2 by (rewrite tab_length; lia). rewrite tab_length, Nat.sub_diag.
  destruct (n - i)%nat eqn:E; [lia|]. reflexivity.
Qed.
Lemma nvi_T n c v : nvi (tab n c) (tab n v) = Ok (tab n (nviF c v)).
Proof.
  unfold nvi. rewrite len_tab, make_tab. cbn [bind]. unfold len at 1. rewrite repeat_length. apply fill_T. intros i Hi.
  destruct i as [|j].
  - cbn [Z.of_nat Z.eqb]. apply (@partial_set _ _ _ _ 0); [lia|reflexivity].
  - destruct (Z.eqb_spec (Z.of_nat (S j)) 0); [lia|]. rewrite !get_tabp by lia. rewrite !get_tab by lia. cbn [bind Nat.pred].
    replace (Z.of_nat (S j) - 1) with (Z.of_nat j) by lia. rewrite get_partial by lia. cbn [bind].
    destruct (v j <~ v (S j)) eqn:E; rewrite ?get_tab by lia; cbn [bind]; (apply partial_set; [lia|]); cbn [nviF]; now rewrite E.
Qed.
Lemma NVI_T kl : rows_of I_NVI tt kl = rows kl (nviF (C kl) (V kl)).
Proof. T_start I_NVI nvi_calc. rewrite nvi_T. cbn [bind]. T_append (nviF (C kl) (V kl)). Qed.

(** ** Accumulation / distribution *)
Definition adV kl i := let x := ad_val (H kl i) (L kl i) (C kl i) (V kl i) in if isNaN x then ofZ 0 else x.
Fixpoint adF kl (i : nat) : F := (match i with O => fzero | S j => adF kl j end) +~ adV kl i.
Lemma upd_upd A (l : list A) k v w : upd (upd l k v) k w = upd l k w.
Proof. revert k; induction l as [|x l IH]; intros [|k]; cbn; auto. now rewrite IH. Qed.
Lemma partial_twice A (z : A) g n i v : (i < n)%nat -> exists l,
  set (partial z g n i) (Z.of_nat i) v = Ok l /\ get l (Z.of_nat i) = Ok v /\
  forall w, w = g i -> set l (Z.of_nat i) w = Ok (partial z g n (S i)).
Proof.
  intros Hi. exists (upd (partial z g n i) i v).
  rewrite set_ok by (rewrite partial_len; lia). rewrite Nat2Z.id. split; [reflexivity|]. split.
  - apply get_ok_iff. rewrite Nat2Z.id. split; [lia|]. apply nth_error_upd_eq. rewrite partial_length; lia.
  - intros w ->. rewrite set_ok by (unfold len; rewrite upd_length, partial_length; lia).
    now rewrite Nat2Z.id, upd_upd, partial_upd.
Qed.
Lemma AD_T kl : rows_of I_AD tt kl = rows kl (adF kl).
Proof.
  T_start I_AD ad_calc. unfold len. rewrite tab_length, make_tab. cbn [bind]. rewrite repeat_length.
  match goal with |- context [for_ 0 ?n ?b ?s] => change (for_ 0 n b s) with (for_ (Z.of_nat 0) n b s) end.
  rewrite (@for_nat _ (fun k => (partial fzero (adF kl) (length kl) k, tab k (fun i => mkRow (tm kl i) (adF kl i))))); [cbn [bind]; reflexivity|lia|now rewrite partial_0|].
  intros i Hi. rewrite time_at_T by lia. rewrite !get_tab by lia.
  destruct i as [|j].
  - destruct (Z.gtb_spec (Z.of_nat 0) 0); [lia|]. cbn [bind].
    rewrite get_partial_at by lia. cbn [bind].
    rewrite partial_set; [|lia|cbn [adF]; unfold adV; now destruct (isNaN _)].
    cbn [bind]. rewrite get_partial by lia. reflexivity.
  - destruct (Z.gtb_spec (Z.of_nat (S j)) 0); [|lia]. replace (Z.of_nat (S j) - 1) with (Z.of_nat j) by lia.
    rewrite get_partial by lia. cbn [bind].
    destruct (@partial_twice _ fzero (adF kl) (length kl) (S j) (adF kl j)) as (l & -> & G & E); [lia|]. cbn [bind].
    rewrite G. cbn [bind]. rewrite E by (cbn [adF]; unfold adV; now destruct (isNaN _)). cbn [bind].
    rewrite get_partial by lia. cbn [bind]. now rewrite (tab_S (S j)).
Qed.
Definition chaikinF p kl i := mkChaikinV (emaF (fsFast p) (adF kl) i +~ emaF (fsSlow p) (adF kl) i *~ ofZ (-1)) (adF kl i).
Lemma Chaikin_T p kl : rows_of I_Chaikin p kl = rows kl (chaikinF p kl).
Proof. T_start I_Chaikin chaikin_calc. rewrite AD_T. cbn [bind]. T_steps. cbn [rVal]. T_append (chaikinF p kl). Qed.

(** ** Money flow index *)
Definition tpF kl i := (H kl i +~ L kl i +~ C kl i) /~ ofZ 3.
Definition rawF kl i := tpF kl i *~ V kl i.
Definition flowF kl i := sgnF (rawF kl i +~ (if (i <? Z.to_nat 1)%nat then ofZ 0 else rawF kl (i - Z.to_nat 1)%nat) *~ ofZ (-1)) *~ rawF kl i.
Definition posF kl i := if flowF kl i >~ ofZ 0 then flowF kl i else ofZ 0.
Definition negF kl i := (if flowF kl i <~ ofZ 0 then flowF kl i else ofZ 0) *~ ofZ (-1).
Definition mfiF p kl i := fpow (div_clean (runF p (posF kl) (S i)) (runF p (negF kl) (S i)) +~ ofZ 1) (ofZ (-1)) *~ ofZ (-100) +~ ofZ 100.
Lemma typical_T kl : mfi_typical (tab (length kl) (H kl)) (tab (length kl) (L kl)) (tab (length kl) (C kl)) = Ok (tab (length kl) (tpF kl)).
Proof.
  unfold mfi_typical. rewrite len_tab, make_tab. cbn [bind]. unfold len. rewrite repeat_length. apply fill_T. intros i Hi.
  rewrite !get_tab by lia. cbn [bind]. now apply partial_set.
Qed.
Lemma MFI_T p kl : 0 <= p -> rows_of I_MFI p kl = rows kl (mfiF (Z.to_nat p) kl).
Proof.
  intros Hp. T_start I_MFI mfi_calc. rewrite typical_T. cbn [bind]. T_steps.
  unfold ExtractSign. rewrite map1_T. cbn [bind]. T_steps. unfold KeepPositives, KeepNegatives. rewrite !map1_T. cbn [bind].
  T_steps. T_append (mfiF (Z.to_nat p) kl).
Qed.

(** ** Volume price trend *)
Definition vptS p kl i := let prev := if (i <? Z.to_nat p)%nat then C kl 0%nat else C kl (i - Z.to_nat p)%nat in
  V kl i *~ div_clean (C kl i +~ prev *~ ofZ (-1)) prev.
Lemma VPT_T p kl : 0 <= p -> kl <> [] -> rows_of I_VPT p kl = rows kl (fun i => runF (length kl) (vptS p kl) (S i)).
Proof.
  intros Hp Hk. T_start I_VPT vpt_calc. 
  assert (0 < length kl)%nat by (destruct kl; [congruence|cbn; lia]).
  change 0 with (Z.of_nat 0). rewrite get_tab by lia. cbn [bind]. T_steps. rewrite len_tab. T_steps. rewrite Nat2Z.id.
  T_append (fun i => runF (length kl) (vptS p kl) (S i)).
Qed.
Lemma VPT_empty p : rows_of I_VPT p [] = Panic.
Proof. reflexivity. Qed.

(** ** True range and average true range of trend.Atr *)
Definition trF kl i := let pc := match i with O => fzero | S j => C kl j end in
  fmax (H kl i -~ L kl i) (fmax (H kl i -~ pc) (L kl i -~ pc)).
Lemma atr_tr_T kl : atr_tr kl (tab (length kl) (H kl)) (tab (length kl) (L kl)) (tab (length kl) (C kl)) = Ok (tab (length kl) (trF kl)).
Proof.
  unfold atr_tr. rewrite make_len. cbn [bind]. apply fill_loop0. intros i Hi.
  assert (E : (if negb (Z.of_nat i =? 0) then get (tab (length kl) (C kl)) (Z.of_nat i - 1) else Ok fzero)
    = Ok (match i with O => fzero | S j => C kl j end)).
  { destruct i as [|j]; [reflexivity|]. destruct (Z.eqb_spec (Z.of_nat (S j)) 0); [lia|]. cbn [negb]. rewrite get_tabp by lia. reflexivity. }
  rewrite E. cbn [bind]. rewrite !get_tab by lia. cbn [bind]. now apply partial_set.
Qed.
Definition rmaF p n f i := snd (rmaS p (tab n f) i).
Lemma Rma_Tn p n f : Rma p (tab n f) = Ok (tab n (rmaF p n f)).
Proof. rewrite Rma_gen, tab_length. reflexivity. Qed.
Definition atrG p kl i := mkAtrV (trF kl i) (rmaF p (length kl) (trF kl) i).
Lemma Atr_ind_T p kl : rows_of I_Atr p kl = rows kl (atrG p kl).
Proof.
  T_start I_Atr atr_calc. rewrite atr_tr_T. cbn [bind]. rewrite Rma_Tn. cbn [bind]. T_make (atrG p kl).
Qed.

(** ** Keltner *)
Definition keltF p kl i := let m := emaF p (C kl) i in let a := rmaF p (length kl) (trF kl) i *~ ofZ 2 in
  mkBand (m +~ a) m (m +~ a *~ ofZ (-1)).
Lemma Keltner_T p kl : rows_of I_Keltner p kl = rows kl (keltF p kl).
Proof.
  T_start I_Keltner keltner_calc. rewrite Atr_ind_T. cbn [bind]. rewrite values_app_T. cbn [bind rVal]. T_steps.
  rewrite Ema_ind_T. cbn [bind]. T_steps. cbn [rVal atrG aAtr]. T_append (keltF p kl).
Qed.

(** ** Camarilla *)
Definition camF p kl i := getCamarilla (H kl i) (L kl i) (C kl i) (emaF p (C kl) i) (tpF kl i).
Lemma Camarilla_T p kl : rows_of I_Camarilla p kl = rows kl (camF (camEMA p) kl).
Proof.
  T_start I_Camarilla cam_calc. unfold cam_calc0. T_steps. unfold HLC3. rewrite percandle_T. cbn [bind]. T_steps.
  T_make (camF (camEMA p) kl).
Qed.
End Forms.
