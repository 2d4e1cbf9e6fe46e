(** * IndForms3: closed forms of RSI, KDJ and Bollinger bands. *)
From Verif Require Import Base Num Order Containers Ta TaTools TaOrd TaElem TaAvg Sides Klines IndBase IndTrend IndChannel
  IndVolume IndOsc IndTools IndForms IndForms2 SpecTa.
Set Implicit Arguments.

Section Forms.
Context {N : Num}.
Local Notation C kl := (fun i => cClose (cn kl i)).
Local Notation H kl := (fun i => cHigh (cn kl i)).
Local Notation L kl := (fun i => cLow (cn kl i)).
Local Notation rows kl g := (Ok (tab (length kl) (fun i => mkRow (tm kl i) (g i)))).

(** ** RSI: total gain and loss of the first [j] changes; Wilder's averages [d] bars after bar [p] *)
Fixpoint rsiA (f : nat -> F) (j : nat) : F * F :=
  match j with
  | O => (fzero, fzero)
  | S k => rsi_add (f (S k) -~ f k) (fst (rsiA f k)) (snd (rsiA f k))
  end.
Definition rsi_avg (p : nat) (gl : F * F) : F * F := (fst gl /~ ofZ (Z.of_nat p), snd gl /~ ofZ (Z.of_nat p)).
Fixpoint rsiW (p : nat) (f : nat -> F) (d : nat) : F * F :=
  match d with
  | O => rsi_avg p (rsiA f p)
  | S k => rsi_avg p (rsi_add (f (p + S k)%nat -~ f (p + k)%nat)
             (fst (rsiW p f k) *~ ofZ (Z.of_nat p - 1)) (snd (rsiW p f k) *~ ofZ (Z.of_nat p - 1)))
  end.
Definition rsiF (p : nat) (f : nat -> F) (i : nat) : F :=
  if (i <? p)%nat then fzero else rsi_out (fst (rsiW p f (i - p))) (snd (rsiW p f (i - p))).

Lemma rsi_T (p : nat) n f : (2 <= p)%nat -> (p < n)%nat -> rsi (tab n f) (Z.of_nat p) = Ok (tab n (rsiF p f)).
Proof.
  intros Hp Hn. unfold rsi. rewrite len_tab, make_tab. cbn [bind].
  destruct (Z.ltb_spec (Z.of_nat n) (Z.of_nat p)); [lia|]. destruct (Z.ltb_spec (Z.of_nat p) 2); [lia|].
  change (get (tab n f) 0) with (get (tab n f) (Z.of_nat 0)). rewrite get_tab by lia. cbn [bind].
  replace (Z.of_nat p + 1) with (Z.of_nat (S p)) by lia.
  match goal with |- context [for_ 1 ?k ?b ?s] => change (for_ 1 k b s) with (for_ (Z.of_nat 1) k b s) end.
  rewrite (@for_nat _ (fun k => (f (pred k), fst (rsiA f (pred k)), snd (rsiA f (pred k))))); [cbn [bind Nat.pred]|lia|reflexivity|].
  2:{ intros i Hi. destruct i as [|k]; [lia|]. rewrite get_tab by lia. cbn [bind Nat.pred rsiA]. destruct (rsi_add _ _ _); reflexivity. }
  rewrite (@partial_skips _ fzero (rsiF p f) n p) by (lia || (intros k Hk; unfold rsiF; destruct (Nat.ltb_spec k p); [reflexivity|lia])).
  rewrite partial_set; [cbn [bind]|exact Hn|unfold rsiF; rewrite Nat.ltb_irrefl, Nat.sub_diag; reflexivity].
  rewrite (@for_nat _ (fun k => (f (pred k), fst (rsiW p f (pred k - p)), snd (rsiW p f (pred k - p)), partial fzero (rsiF p f) n k)));
    [cbn [bind]; now rewrite partial_full|lia|cbn [Nat.pred]; rewrite Nat.sub_diag; reflexivity|].
  intros i Hi. destruct i as [|k]; [lia|]. cbn [Nat.pred]. rewrite get_tab by lia. cbn [bind].
  assert (W : rsiW p f (S k - p) = rsi_avg p (rsi_add (f (S k) -~ f k) (fst (rsiW p f (k - p)) *~ ofZ (Z.of_nat p - 1)) (snd (rsiW p f (k - p)) *~ ofZ (Z.of_nat p - 1)))).
  { replace (S k - p)%nat with (S (k - p)) by lia. cbn [rsiW]. replace (p + S (k - p))%nat with (S k) by lia. now replace (p + (k - p))%nat with k by lia. }
  rewrite W. destruct (rsi_add _ _ _) as [g l]. unfold rsi_avg. cbn [fst snd].
  rewrite partial_set; [reflexivity|lia|]. unfold rsiF. destruct (Nat.ltb_spec (S k) p); [lia|]. now rewrite W.
Qed.
Lemma rsi_short p n f : Z.of_nat n < p \/ p < 2 -> rsi (tab n f) p = Ok (tab n (fun _ => fzero)).
Proof.
  intros Hp. unfold rsi. rewrite len_tab, make_tab. cbn [bind]. rewrite <- tab_const.
  destruct (Z.ltb_spec (Z.of_nat n) p); [reflexivity|]. destruct (Z.ltb_spec p 2); [reflexivity|lia].
Qed.
Lemma rsi_panic n f : (2 <= n)%nat -> rsi (tab n f) (Z.of_nat n) = Panic.
Proof.
  intros Hp. unfold rsi. rewrite len_tab, make_tab. cbn [bind]. rewrite Z.ltb_irrefl. destruct (Z.ltb_spec (Z.of_nat n) 2); [lia|].
  change (get (tab n f) 0) with (get (tab n f) (Z.of_nat 0)). rewrite get_tab by lia. cbn [bind].
  rewrite for_last_panic; [reflexivity|lia|]. intros [[a b] c]. replace (Z.of_nat n + 1 - 1) with (Z.of_nat n) by lia.
  replace (get (tab n f) (Z.of_nat n)) with (@Panic F); [reflexivity|]. symmetry. apply get_out. rewrite len_tab. lia.
Qed.
Lemma Rsi_T (p : nat) kl : (2 <= p)%nat -> (p < length kl)%nat -> rows_of I_Rsi (Z.of_nat p) kl = rows kl (rsiF p (C kl)).
Proof. intros Hp Hn. T_start I_Rsi rsi_calc. rewrite rsi_T by assumption. cbn [bind]. T_append (rsiF p (C kl)). Qed.
Lemma Rsi_short p kl : len kl < p \/ p < 2 -> rows_of I_Rsi p kl = rows kl (fun _ => fzero).
Proof. intros Hp. T_start I_Rsi rsi_calc. rewrite rsi_short by exact Hp. cbn [bind]. T_append (fun _ : nat => fzero). Qed.
Lemma Rsi_panic kl : (2 <= length kl)%nat -> rows_of I_Rsi (len kl) kl = Panic.
Proof. intros Hp. T_start I_Rsi rsi_calc. unfold len. rewrite rsi_panic by exact Hp. reflexivity. Qed.

(** ** KDJ *)
(** lowest and highest of f s, ..., f (s+k) *)
Fixpoint lowF (f : nat -> F) (s k : nat) : F :=
  match k with O => f s | S k' => if f (s + k)%nat <~ lowF f s k' then f (s + k)%nat else lowF f s k' end.
Fixpoint highF (f : nat -> F) (s k : nat) : F :=
  match k with O => f s | S k' => if f (s + k)%nat >~ highF f s k' then f (s + k)%nat else highF f s k' end.
Lemma lowest_T f s k : arrayLowest (tab (S k) (fun j => f (s + j)%nat)) = Ok (lowF f s k).
Proof.
  unfold arrayLowest. change 0 with (Z.of_nat 0). rewrite get_tab by lia. cbn [bind]. rewrite Nat.add_0_r, len_tab.
  change 1 with (Z.of_nat 1). rewrite (@for_nat _ (fun i => lowF f s (pred i))); [reflexivity|lia|reflexivity|].
  intros [|i] Hi; [lia|]. rewrite get_tab by lia. reflexivity.
Qed.
Lemma highest_T f s k : arrayHighest (tab (S k) (fun j => f (s + j)%nat)) = Ok (highF f s k).
Proof.
  unfold arrayHighest. change 0 with (Z.of_nat 0). rewrite get_tab by lia. cbn [bind]. rewrite Nat.add_0_r, len_tab.
  change 1 with (Z.of_nat 1). rewrite (@for_nat _ (fun i => highF f s (pred i))); [reflexivity|lia|reflexivity|].
  intros [|i] Hi; [lia|]. rewrite get_tab by lia. reflexivity.
Qed.
Definition rsvF (p : nat) (lo hi cl : nat -> F) (i : nat) : F :=
  let a := lowF lo (i - (p - 1)) (p - 1) in let b := highF hi (i - (p - 1)) (p - 1) in
  if b -~ a <~ lit 1 1000000 then ofZ 100 else (cl i -~ a) /~ (b -~ a) *~ ofZ 100.
Fixpoint kdjF (p : nat) (lo hi cl : nat -> F) (i : nat) : F * F * F :=
  match i with
  | O => (ofZ 0, ofZ 50, ofZ 50)
  | S j =>
    if (i <? p - 1)%nat then (ofZ 0, ofZ 50, ofZ 50) else
    let '(_, pk, pd) := kdjF p lo hi cl j in
    let rsv := rsvF p lo hi cl i in
    let k := lit 2 3 *~ pk +~ lit 1 3 *~ rsv in
    (rsv, k, lit 2 3 *~ pd +~ lit 1 3 *~ k)
  end.
Lemma tab_cons A n (f : nat -> A) : tab (S n) f = f O :: tab n (fun i => f (S i)).
Proof. unfold tab. cbn [seq map]. now rewrite <- seq_shift, map_map. Qed.
Lemma slice1 A n (f : nat -> A) : slice (tab (S n) f) 1 (Z.of_nat (S n)) = Ok (tab n (fun i => f (S i))).
Proof.
  unfold slice. rewrite len_tab. destruct (Z.leb_spec 0 1); [|lia]. destruct (Z.leb_spec 1 (Z.of_nat (S n))); [|lia].
  destruct (Z.leb_spec (Z.of_nat (S n)) (Z.of_nat (S n))); [|lia]. cbn [andb]. rewrite tab_cons.
  f_equal. rewrite Nat2Z.id. rewrite firstn_all2 by (cbn [length]; rewrite tab_length; lia). reflexivity.
Qed.
Lemma kdj_T (p : nat) n lo hi cl : (2 <= p)%nat -> kdj_kd (Z.of_nat p) (tab n lo) (tab n hi) (tab n cl) = Ok (tab n (kdjF p lo hi cl)).
Proof.
  intros Hp. unfold kdj_kd. rewrite len_tab, make_tab. cbn [bind]. rewrite <- (@partial_0 _ _ (kdjF p lo hi cl)).
  pose (m := fun i => Nat.min i (p - 1)).
  match goal with |- context [for_ 0 ?k ?b ?s] => change (for_ 0 k b s) with (for_ (Z.of_nat 0) k b s) end.
  rewrite (@for_nat _ (fun i => (tab (m i) (fun j => lo (i - m i + j)%nat), tab (m i) (fun j => hi (i - m i + j)%nat), partial (fzero, fzero, fzero) (kdjF p lo hi cl) n i)));
    [cbn [bind]; now rewrite partial_full|lia|reflexivity|].
  intros i Hi. rewrite !get_tab by lia. cbn [bind].
  assert (TS : forall f : nat -> F, tab (m i) (fun j => f (i - m i + j)%nat) ++ [f i] = tab (S (m i)) (fun j => f (i - m i + j)%nat)).
  { intros f. rewrite tab_S. do 2 f_equal. f_equal. unfold m. lia. }
  rewrite !TS, !len_tab. destruct (Z.eqb_spec (Z.of_nat p) (Z.of_nat (S (m i)))) as [E|E].
  - assert (Ei : (p - 1 <= i)%nat) by (unfold m in E; lia). assert (Em : m i = (p - 1)%nat) by (unfold m; lia).
    rewrite lowest_T, highest_T. cbn [bind]. rewrite !Em.
    destruct i as [|j]; [lia|].
    assert (R : (if highF hi (S j - (p - 1)) (p - 1) -~ lowF lo (S j - (p - 1)) (p - 1) <~ lit 1 1000000 then Ok (ofZ 100)
      else Ok ((cl (S j) -~ lowF lo (S j - (p - 1)) (p - 1)) /~ (highF hi (S j - (p - 1)) (p - 1) -~ lowF lo (S j - (p - 1)) (p - 1)) *~ ofZ 100)) = Ok (rsvF p lo hi cl (S j))).
    { unfold rsvF. destruct (_ <~ _); reflexivity. }
    rewrite R. cbn [bind]. replace (Z.of_nat (S j) - 1) with (Z.of_nat j) by lia. rewrite get_partial by lia. cbn [bind].
    destruct (kdjF p lo hi cl j) as [[q pk] pd] eqn:Ek.
    rewrite partial_set; [cbn [bind]|lia|cbn [kdjF]; destruct (Nat.ltb_spec (S j) (p - 1)); [lia|]; now rewrite Ek].
    rewrite !slice1. cbn [bind]. do 2 f_equal. assert (Em' : m (S (S j)) = (p - 1)%nat) by (unfold m; lia). rewrite Em'.
    f_equal; apply tab_ext; intros x Hx; f_equal; lia.
  - assert (Ei : (i < p - 1)%nat) by (unfold m in E; lia).
    rewrite partial_set; [cbn [bind]|lia|destruct i as [|j]; cbn [kdjF]; [reflexivity|]; destruct (Nat.ltb_spec (S j) (p - 1)); [reflexivity|lia]].
    do 2 f_equal. assert (Em : m i = i) by (unfold m; lia). assert (Em' : m (S i) = S i) by (unfold m; lia). rewrite Em, Em', !Nat.sub_diag. reflexivity.
Qed.
Definition kdjG p kl i := let '(r, k, d) := kdjF p (L kl) (H kl) (C kl) i in mkKdjV r k d (kdj_j k d).
Lemma Kdj_T (p : nat) kl : (2 <= p)%nat -> rows_of I_Kdj (Z.of_nat p) kl = rows kl (kdjG p kl).
Proof.
  intros Hp. T_start I_Kdj kdj_calc. rewrite kdj_T by exact Hp. cbn [bind].
  unfold len; rewrite ?tab_length. rewrite (@make_rows_T _ _ _ _ _ _ _ _ (kdjG p kl) eq_refl eq_refl); [reflexivity|..];
  [intros; now apply time_at_T|]. intros i Hi. rewrite get_tab by lia. cbn [bind]. unfold kdjG. destruct (kdjF p _ _ _ i) as [[r k] d]. reflexivity.
Qed.
(** For period 1 the first bar reads its predecessor. *)
Lemma Kdj_panic kl : kl <> [] -> rows_of I_Kdj 1 kl = Panic.
Proof.
  intros Hk. T_start I_Kdj kdj_calc. unfold kdj_kd. rewrite len_tab, make_tab. cbn [bind].
  rewrite for_first_panic; [reflexivity|destruct kl; [congruence|cbn [length]; lia]|].
  change 0 with (Z.of_nat 0). assert (0 < length kl)%nat by (destruct kl; [congruence|cbn [length]; lia]).
  assert (A1 : forall x : F, arrayLowest [x] = Ok x) by reflexivity. assert (A2 : forall x : F, arrayHighest [x] = Ok x) by reflexivity.
  rewrite !get_tab by lia. cbn [bind app]. change (1 =? len [cLow (cn kl 0)]) with true. cbn iota. rewrite A1, A2. cbn [bind].
  destruct (_ <~ _); reflexivity.
Qed.

(** ** Bollinger bands *)
Definition sqF kl i := cClose (cn kl i) *~ cClose (cn kl i).
(** the running sum of squares kept before bar i *)
Fixpoint sq_run (p : nat) kl (i : nat) : F :=
  match i with
  | O => ofZ 0
  | S j => if (j <? p - 1)%nat then sq_run p kl j +~ sqF kl j else sq_run p kl j +~ sqF kl j -~ sqF kl (j - (p - 1))
  end.
Definition bollMD p kl i := if (i <? p - 1)%nat then ofZ 0 else
  fsqrt ((sq_run p kl i +~ sqF kl i) /~ ofZ (Z.of_nat p) -~ smaF p (C kl) i *~ smaF p (C kl) i).
Definition bollF p kl i := let m := smaF p (C kl) i in let d := bollMD p kl i in
  mkBollV (m +~ d) m (m +~ d *~ ofZ (-1)) d.
Lemma boll_md_T (p : nat) kl : (1 <= p)%nat -> boll_md (Z.of_nat p) kl (tab (length kl) (smaF p (C kl))) = Ok (tab (length kl) (bollMD p kl)).
Proof.
  intros Hp. unfold boll_md. rewrite make_len. cbn [bind]. unfold range_. rewrite <- (@partial_0 _ _ (bollMD p kl)).
  rewrite (@for_nat0 _ (fun i => (sq_run p kl i, partial fzero (bollMD p kl) (length kl) i)));
    [cbn [bind]; now rewrite partial_full|reflexivity|].
  intros i Hi. rewrite (@get_nat _ kl i (blank 0)) by lia. cbn [bind]. fold (cn kl i).
  cbn [sq_run]. change (cClose (cn kl i) *~ cClose (cn kl i)) with (sqF kl i).
  destruct (Z.ltb_spec (Z.of_nat i) (Z.of_nat p - 1)), (Nat.ltb_spec i (p - 1)); try lia.
  - rewrite partial_set; [reflexivity|exact Hi|]. unfold bollMD. destruct (Nat.ltb_spec i (p - 1)); [reflexivity|lia].
  - rewrite get_tab by exact Hi. cbn [bind]. rewrite partial_set; [cbn [bind]|exact Hi|unfold bollMD; destruct (Nat.ltb_spec i (p - 1)); [lia|reflexivity]].
    replace (Z.of_nat i - (Z.of_nat p - 1)) with (Z.of_nat (i - (p - 1))) by lia.
    rewrite (@get_nat _ kl _ (blank 0)) by lia. cbn [bind]. reflexivity.
Qed.
Lemma Boll_T (p : BollP) kl : 1 <= blN p -> rows_of I_Boll p kl = rows kl (bollF (Z.to_nat (blN p)) kl).
Proof.
  intros Hp. T_start I_Boll boll_calc. rewrite Sma_ind_T by lia. cbn [bind]. rewrite values_T. cbn [bind rVal].
  replace (boll_md (blN p) kl) with (boll_md (Z.of_nat (Z.to_nat (blN p))) kl) by (now rewrite Z2Nat.id by lia).
  rewrite boll_md_T by lia. cbn [bind]. T_steps. T_make (bollF (Z.to_nat (blN p)) kl).
Qed.
End Forms.
