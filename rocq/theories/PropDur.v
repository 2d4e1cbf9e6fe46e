(** * PropDur: the text of an interval tells which interval it is (C110). *)
From Coq Require Import ZArith List Ascii String Lia.
From Verif Require Import Durations SpecDur.
Import ListNotations.
Open Scope Z_scope.

(** ** Reading back what the helpers wrote *)
Lemma digit_spec d : 0 <= d < 10 -> is_digit (digit d) = true /\ digit_value (digit d) = d.
Proof.
  intros H. assert (K : d = 0 \/ d = 1 \/ d = 2 \/ d = 3 \/ d = 4 \/ d = 5 \/ d = 6 \/ d = 7 \/ d = 8 \/ d = 9) by lia.
  repeat (destruct K as [-> | K]; [split; reflexivity|]). subst; split; reflexivity.
Qed.
Lemma num_app a b : number (a ++ b) = number a * 10 ^ Z.of_nat (List.length b) + number b.
Proof.
  unfold number. rewrite fold_left_app. generalize (fold_left (fun a d => 10 * a + d) a 0); clear a. intros v. revert v.
  induction b as [|x b IH] using rev_ind; intros v; [cbn; lia|].
  rewrite !fold_left_app, app_length; cbn [fold_left List.length]. rewrite IH. rewrite Nat2Z.inj_add, Z.pow_add_r by lia. change (10 ^ Z.of_nat 1) with 10. lia.
Qed.
Lemma num_cons d b : number (d :: b) = d * 10 ^ Z.of_nat (List.length b) + number b.
Proof. change (d :: b) with ([d] ++ b)%list. rewrite num_app. cbn [number fold_left]. unfold number; cbn; lia. Qed.
(** [s] is a row of digits followed by [r] *)
Fixpoint digits (ds : list Z) (r : string) : string := match ds with [] => r | d :: t => String (digit d) (digits t r) end.
Lemma digits_snoc ds d r : digits ds (String (digit d) r) = digits (ds ++ [d]) r.
Proof. induction ds as [|x ds IH]; cbn [digits app]; [reflexivity | now rewrite IH]. Qed.
Definition ok_digits (ds : list Z) := Forall (fun d => 0 <= d < 10) ds.
Definition no_digit (r : string) : Prop := match r with String c _ => is_digit c = false | EmptyString => True end.
Lemma take_digits_spec ds r : ok_digits ds -> no_digit r -> take_digits (digits ds r) = (ds, r).
Proof.
  intros H Hr. induction H as [|d ds Hd H IH]; cbn [digits].
  - destruct r as [|c r]; [reflexivity|]. cbn in *. now rewrite Hr.
  - cbn [take_digits]. destruct (digit_spec d Hd) as [-> E]. now rewrite IH, E.
Qed.
Lemma fmtIntLoop_spec fuel v acc : 0 <= v < 10 ^ Z.of_nat fuel -> exists ds, fmtIntLoop fuel v acc = digits ds acc /\ ok_digits ds /\ number ds = v /\ (v = 0 -> ds = []) /\ (0 < v -> ds <> [] /\ hd 0 ds <> 0).
Proof.
  revert v acc. induction fuel as [|f IH]; intros v acc H.
  - change (10 ^ Z.of_nat 0) with 1 in H. exists []. cbn. repeat split; try constructor; lia.
  - cbn [fmtIntLoop]. destruct (Z.ltb_spec 0 v) as [P|P].
    + destruct (IH (v / 10) (String (digit (v mod 10)) acc)) as (ds & E & O & Nn & Z0 & Pp).
      { rewrite Nat2Z.inj_succ, Z.pow_succ_r in H by lia. split; [apply Z.div_pos; lia | apply Z.div_lt_upper_bound; lia]. }
      exists (ds ++ [v mod 10])%list. assert (Hm := Z.mod_pos_bound v 10 ltac:(lia)). repeat split.
      * rewrite E. apply digits_snoc.
      * apply Forall_app; split; [exact O | repeat constructor; lia].
      * rewrite num_app, Nn. cbn. assert (Q := Z.div_mod v 10 ltac:(lia)). unfold number; cbn. lia.
      * lia.
      * intros K. destruct ds; cbn in K; discriminate.
      * destruct (Z.eq_dec (v / 10) 0) as [Q|Q].
        -- rewrite (Z0 Q). cbn. assert (W := Z.div_mod v 10 ltac:(lia)). lia.
        -- assert (0 <= v / 10) by (apply Z.div_pos; lia). destruct (Pp ltac:(lia)) as [N1 N2]. destruct ds; [now elim N1 | exact N2].
    + exists []. cbn. repeat split; try constructor; lia.
Qed.
Lemma fmtInt_spec v acc : 0 <= v < 10 ^ 20 -> exists ds, fmtInt v acc = digits ds acc /\ ok_digits ds /\ number ds = v /\ (ds = [0] \/ (ds <> [] /\ hd 0 ds <> 0)).
Proof.
  intros H. unfold fmtInt. destruct (Z.eqb_spec v 0) as [->|Nz].
  - exists [0]. repeat split; [repeat constructor; lia | now left].
  - destruct (fmtIntLoop_spec 20 v acc) as (ds & E & O & Nn & _ & Pp); [exact H|]. exists ds. repeat split; trivial. right. apply Pp; lia.
Qed.
Lemma fmtFracLoop_spec prec : forall print v acc, 0 <= v -> exists ds, let '(pr, v', acc') := fmtFracLoop prec print v acc in
  acc' = digits ds acc /\ ok_digits ds /\ v' = v / 10 ^ Z.of_nat prec /\ (List.length ds <= prec)%nat /\
  (print = true -> List.length ds = prec /\ pr = true) /\
  number ds * 10 ^ Z.of_nat (prec - List.length ds) = v mod 10 ^ Z.of_nat prec /\ (pr = false -> ds = []) /\ (pr = true -> print = true \/ ds <> []).
Proof.
  induction prec as [|n IH]; intros print v acc H.
  - exists []. cbn. change (10 ^ 0) with 1. rewrite Z.div_1_r, Z.mod_1_r. repeat split; trivial; [constructor | now left].
  - cbn [fmtFracLoop]. set (print' := (print || negb (v mod 10 =? 0))%bool).
    destruct (IH print' (v / 10) (if print' then String (digit (v mod 10)) acc else acc) ltac:(apply Z.div_pos; lia)) as (ds & K).
    destruct (fmtFracLoop n print' (v / 10) (if print' then String (digit (v mod 10)) acc else acc)) as [[pr v'] acc'].
    destruct K as (E & O & V & L & P & Nn & Pf & Pt). assert (Hm := Z.mod_pos_bound v 10 ltac:(lia)).
    assert (Hv : v' = v / 10 ^ Z.of_nat (S n)).
    { rewrite V, Nat2Z.inj_succ, Z.pow_succ_r, Z.div_div by (try apply Z.pow_pos_nonneg; lia). reflexivity. }
    assert (Hmod : v mod 10 ^ Z.of_nat (S n) = v mod 10 + 10 * ((v / 10) mod 10 ^ Z.of_nat n)).
    { rewrite Nat2Z.inj_succ, Z.pow_succ_r by lia. apply Z.rem_mul_r; [lia | apply Z.pow_pos_nonneg; lia]. }
    destruct print' eqn:Ep.
    + destruct (P eq_refl) as [L1 P1]. exists (ds ++ [v mod 10])%list. repeat split; trivial.
      * rewrite E. apply digits_snoc.
      * apply Forall_app; split; [exact O | repeat constructor; lia].
      * rewrite app_length; cbn; lia.
      * rewrite app_length; cbn; lia.
      * rewrite app_length, num_app, Hmod. cbn [List.length]. replace (S n - (List.length ds + 1))%nat with 0%nat by lia.
        replace (n - List.length ds)%nat with 0%nat in Nn by lia. change (10 ^ Z.of_nat 0) with 1 in *. change (10 ^ Z.of_nat 1) with 10.
        change (number [v mod 10]) with (10 * 0 + v mod 10). lia.
      * intros Q; rewrite Q in P1; discriminate.
      * intros _; right. destruct ds; discriminate.
    + exists ds. unfold print' in Ep. apply Bool.orb_false_iff in Ep as [-> Ev]. apply Bool.negb_false_iff, Z.eqb_eq in Ev. repeat split; trivial; try lia.
      all: try discriminate.
      * rewrite Hmod, Ev, <- Nn. replace (S n - List.length ds)%nat with (S (n - List.length ds)) by lia. rewrite Nat2Z.inj_succ, Z.pow_succ_r by lia. lia.
Qed.
Lemma fmtFrac_spec v prec acc : 0 <= v -> exists ds, fmtFrac v prec acc = (v / 10 ^ Z.of_nat prec, match ds with [] => acc | _ => String "."%char (digits ds acc) end) /\
  ok_digits ds /\ (List.length ds <= prec)%nat /\ number ds * 10 ^ Z.of_nat (prec - List.length ds) = v mod 10 ^ Z.of_nat prec.
Proof.
  intros H. unfold fmtFrac. destruct (fmtFracLoop_spec prec false v acc H) as (ds & K). destruct (fmtFracLoop prec false v acc) as [[pr v'] acc'] eqn:Ef.
  destruct K as (-> & O & -> & L & _ & Nn & Pf & Pt). exists ds. repeat split; trivial.
  f_equal. destruct pr; [destruct (Pt eq_refl) as [W|W]; [discriminate|]; destruct ds; [now elim W | reflexivity] | now rewrite (Pf eq_refl)].
Qed.

(** ** A number with its unit *)
Lemma group_spec ds fs u n r v : ok_digits ds -> ds <> [] -> ok_digits fs -> unit_ns u = Some n -> take_unit (u ++ r) = (u, r) -> no_digit (u ++ r) ->
  number fs * n = v * 10 ^ Z.of_nat (List.length fs) ->
  (match (u ++ r)%string with String c _ => Ascii.eqb c "." = false | EmptyString => True end) ->
  read_group (digits ds (match fs with [] => u ++ r | _ => String "."%char (digits fs (u ++ r)) end)) = Some (number ds * n + v, r).
Proof.
  intros Od Nd Of Un Tu Nr Q Dot. unfold read_group.
  rewrite take_digits_spec; [|exact Od|destruct fs; [exact Nr | reflexivity]]. destruct ds as [|d ds]; [now elim Nd|].
  replace (take_fraction _) with (fs, (u ++ r)%string).
  2:{ destruct fs as [|f fs]; [cbn [take_fraction]; destruct (u ++ r)%string as [|c t]; [reflexivity | cbn; now rewrite Dot]|].
      unfold take_fraction. change (Ascii.eqb "." ".") with true. cbn iota. now rewrite take_digits_spec. }
  rewrite Tu, Un, Q, Z.mod_mul, Z.div_mul by (apply Z.pow_nonzero; lia). reflexivity.
Qed.
Lemma groups_step f s v r w : read_group s = Some (v, r) -> read_groups f r = Some w -> read_groups (S f) s = Some (v + w).
Proof. intros E1 E2. destruct s as [|c s]; [discriminate|]. cbn [read_groups]. now rewrite E1, E2. Qed.
Lemma groups_mono f : forall g s v, read_groups f s = Some v -> (f <= g)%nat -> read_groups g s = Some v.
Proof.
  induction f as [|f IH]; intros g s v E L; (destruct s as [|c s]; [destruct g; exact E|]); [discriminate|].
  destruct g as [|g]; [lia|]. cbn [read_groups] in *. destruct (read_group (String c s)) as [[a r]|]; [|discriminate].
  destruct (read_groups f r) as [w|] eqn:Ew; [|discriminate]. rewrite (IH g r w Ew ltac:(lia)). exact E.
Qed.
Lemma digits_length ds r : String.length (digits ds r) = (List.length ds + String.length r)%nat.
Proof. induction ds as [|d ds IH]; cbn [digits String.length List.length]; [reflexivity | rewrite IH; reflexivity]. Qed.
(** reading one number with a fraction: [prec] digits of a unit of 10^prec nanoseconds *)
Lemma frac_group u prec unit n : 0 <= u < 10 ^ 20 -> unit_ns unit = Some n -> n = 10 ^ Z.of_nat prec -> take_unit (unit ++ "") = (unit, ""%string) -> no_digit (unit ++ "") ->
  (match (unit ++ "")%string with String c _ => Ascii.eqb c "." = false | EmptyString => True end) ->
  let '(v, acc) := fmtFrac u prec unit in exists ds, fmtInt v acc = digits ds acc /\ ok_digits ds /\ ds <> [] /\ read_group (fmtInt v acc) = Some (u, ""%string).
Proof.
  intros H Un En Tu Nu Du. destruct (fmtFrac_spec u prec unit ltac:(lia)) as (fs & -> & Of & Lf & Nf).
  assert (P10 : 0 < 10 ^ Z.of_nat prec) by (apply Z.pow_pos_nonneg; lia).
  assert (Su : (unit ++ "")%string = unit) by (clear; induction unit as [|c t IH]; cbn; [reflexivity | now rewrite IH]).
  destruct (fmtInt_spec (u / 10 ^ Z.of_nat prec) (match fs with [] => unit | _ => String "."%char (digits fs unit) end)) as (ds & -> & Od & Nd & Sh).
  { split; [apply Z.div_pos; lia | apply Z.div_lt_upper_bound; [lia|]; nia]. }
  assert (Ne : ds <> []) by (destruct Sh as [-> | [W _]]; [discriminate | exact W]).
  exists ds. repeat split; trivial.
  assert (Q := group_spec ds fs unit n ""%string (u mod 10 ^ Z.of_nat prec) Od Ne Of Un Tu Nu).
  rewrite Su in Q. rewrite Q.
  - f_equal. f_equal. rewrite Nd, En. assert (W := Z.div_mod u (10 ^ Z.of_nat prec) ltac:(lia)). lia.
  - rewrite En, <- Nf. rewrite <- Z.mul_assoc, <- Z.pow_add_r by lia. f_equal. f_equal. lia.
  - rewrite Su in Du. exact Du.
Qed.
(** reading a whole number of minutes or hours *)
Lemma whole_group v c n r : 0 <= v < 10 ^ 20 -> is_digit c = false -> Ascii.eqb c "." = false -> unit_ns (String c EmptyString) = Some n ->
  (match r with String x _ => (is_digit x || Ascii.eqb x ".")%bool = true | EmptyString => True end) ->
  exists ds, fmtInt v (String c r) = digits ds (String c r) /\ ok_digits ds /\ ds <> [] /\ read_group (fmtInt v (String c r)) = Some (v * n, r).
Proof.
  intros H Hc Hd Un Hr. destruct (fmtInt_spec v (String c r) H) as (ds & -> & Od & Nd & Sh).
  assert (Ne : ds <> []) by (destruct Sh as [-> | [W _]]; [discriminate | exact W]).
  exists ds. repeat split; trivial.
  assert (Q := group_spec ds [] (String c EmptyString) n r 0 Od Ne (Forall_nil _) Un). cbn [append] in Q. rewrite Q; trivial.
  - f_equal. f_equal. lia.
  - cbn [take_unit]. rewrite Hc, Hd. cbn [orb]. destruct r as [|x r]; [reflexivity|]. cbn [take_unit]. now rewrite Hr.
Qed.
Lemma digits_head ds r : ok_digits ds -> ds <> [] -> match digits ds r with String x _ => is_digit x = true | EmptyString => False end.
Proof. intros O Ne. destruct ds as [|d ds]; [now elim Ne|]. inversion O; subst. cbn [digits]. now apply digit_spec. Qed.
Lemma abs_text u : 0 <= u <= 2 ^ 63 -> let T := Duration_abs_String u in
  read_groups (String.length T) T = Some u /\ match T with String x _ => is_digit x = true | EmptyString => False end.
Proof.
  intros H T. assert (B : 2 ^ 63 < 10 ^ 20) by reflexivity. unfold T; clear T. unfold Duration_abs_String.
  assert (One : forall ds acc t, t = digits ds acc -> ok_digits ds -> ds <> [] -> read_group t = Some (u, ""%string) ->
     read_groups (String.length t) t = Some u /\ match t with String x _ => is_digit x = true | EmptyString => False end).
  { intros ds acc t Et Od Ne R. split; [|rewrite Et; now apply digits_head].
    apply (groups_mono 1); [rewrite <- (Z.add_0_r u); now apply groups_step with (r := ""%string)|].
    rewrite Et, digits_length. destruct ds; [now elim Ne | cbn [List.length]; lia]. }
  destruct (Z.ltb_spec u 1000000000) as [L|L].
  - destruct (Z.eqb_spec u 0) as [-> | Nz]; [split; reflexivity|].
    destruct (Z.ltb_spec u 1000) as [L1|L1]; [|destruct (Z.ltb_spec u 1000000) as [L2|L2]].
    + assert (K := frac_group u 0 "ns" 1 ltac:(lia) eq_refl eq_refl eq_refl eq_refl eq_refl). destruct (fmtFrac u 0 "ns") as [v acc].
      destruct K as (ds & E & Od & Ne & R). now apply (One ds acc).
    + assert (K := frac_group u 3 "µs" 1000 ltac:(lia) eq_refl eq_refl eq_refl eq_refl eq_refl). destruct (fmtFrac u 3 "µs") as [v acc].
      destruct K as (ds & E & Od & Ne & R). now apply (One ds acc).
    + assert (K := frac_group u 6 "ms" 1000000 ltac:(lia) eq_refl eq_refl eq_refl eq_refl eq_refl). destruct (fmtFrac u 6 "ms") as [v acc].
      destruct K as (ds & E & Od & Ne & R). now apply (One ds acc).
  - destruct (fmtFrac_spec u 9 "s" ltac:(lia)) as (fs & -> & Of & Lf & Nf). change (10 ^ Z.of_nat 9) with 1000000000 in *.
    set (acc := match fs with [] => "s"%string | _ => String "."%char (digits fs "s") end).
    set (v := u / 1000000000). assert (Hv : 1 <= v <= 2 ^ 63 / 1000000000) by (split; [apply Z.div_le_lower_bound; lia | apply Z.div_le_mono; lia]).
    change (2 ^ 63 / 1000000000) with 9223372036 in Hv. cbv zeta.
    assert (Hu : u = 1000000000 * v + u mod 1000000000) by (apply Z.div_mod; lia).
    assert (Hs := Z.mod_pos_bound v 60 ltac:(lia)).
    destruct (fmtInt_spec (v mod 60) acc ltac:(lia)) as (ss & Es & Os & Ns & Shs).
    assert (Nes : ss <> []) by (destruct Shs as [-> | [W _]]; [discriminate | exact W]).
    assert (Rs : read_group (fmtInt (v mod 60) acc) = Some ((v mod 60) * 1000000000 + u mod 1000000000, ""%string)).
    { rewrite Es. assert (Q := group_spec ss fs "s" 1000000000 ""%string (u mod 1000000000) Os Nes Of eq_refl eq_refl eq_refl). cbn [append] in Q. rewrite Ns in Q. apply Q; [|reflexivity].
      rewrite <- Nf. rewrite <- Z.mul_assoc, <- Z.pow_add_r by lia. replace (Z.of_nat (9 - List.length fs) + Z.of_nat (List.length fs)) with 9 by lia. reflexivity. }
    assert (Gs := groups_step 0 _ _ _ 0 Rs eq_refl).
    assert (Hds := digits_head ss acc Os Nes). rewrite <- Es in Hds.
    assert (Ls : (1 <= String.length (fmtInt (v mod 60) acc))%nat) by (rewrite Es, digits_length; destruct ss; [now elim Nes | cbn [List.length]; lia]).
    set (S1 := fmtInt (v mod 60) acc) in *. clearbody S1.
    assert (Hd60 := Z.div_mod v 60 ltac:(lia)). assert (B60 : 0 <= v / 60 <= 9223372036) by (split; [apply Z.div_pos; lia | apply Z.div_le_upper_bound; lia]).
    destruct (Z.ltb_spec 0 (v / 60)) as [M|M].
    2:{ split; [|exact Hds]. apply (groups_mono 1); [|exact Ls]. rewrite Gs. f_equal. lia. }
    assert (Hm := Z.mod_pos_bound (v / 60) 60 ltac:(lia)).
    destruct (whole_group ((v / 60) mod 60) "m"%char (60 * 1000000000) S1 ltac:(lia) eq_refl eq_refl eq_refl) as (ms & Em & Om & Nem & Rm).
    { destruct S1 as [|x S1]; [exact I | now rewrite Hds]. }
    assert (Gm := groups_step 1 _ _ _ _ Rm Gs).
    assert (Hdm := digits_head ms (String "m"%char S1) Om Nem). rewrite <- Em in Hdm.
    assert (Lm : (2 <= String.length (fmtInt ((v / 60) mod 60) (String "m"%char S1)))%nat).
    { rewrite Em, digits_length. cbn [String.length]. destruct ms; [now elim Nem | cbn [List.length]; lia]. }
    set (S2 := fmtInt ((v / 60) mod 60) (String "m"%char S1)) in *. clearbody S2.
    assert (Hd3600 := Z.div_mod (v / 60) 60 ltac:(lia)). assert (B3600 : 0 <= v / 60 / 60 <= 9223372036) by (split; [apply Z.div_pos; lia | apply Z.div_le_upper_bound; lia]).
    destruct (Z.ltb_spec 0 (v / 60 / 60)) as [Hh|Hh].
    2:{ split; [|exact Hdm]. apply (groups_mono 2); [|exact Lm]. rewrite Gm. f_equal. lia. }
    destruct (whole_group (v / 60 / 60) "h"%char (3600 * 1000000000) S2 ltac:(lia) eq_refl eq_refl eq_refl) as (hs & Eh & Oh & Neh & Rh).
    { destruct S2 as [|x S2]; [exact I | now rewrite Hdm]. }
    assert (Gh := groups_step 2 _ _ _ _ Rh Gm). split; [|rewrite Eh; now apply digits_head].
    apply (groups_mono 3); [rewrite Gh; f_equal; lia|]. rewrite Eh, digits_length. cbn [String.length]. lia.
Qed.

(** ** C110: the text of an interval *)
(** reading the text of an interval gives the interval back *)
Theorem C110_read_back (i : Z) : int64 i -> read_duration (Interval_String i) = Some i.
Proof.
  intros [H1 H2]. unfold Interval_String, Interval_Duration, Duration_String.
  destruct (abs_text (Z.abs i) ltac:(lia)) as [R Hd]. destruct (Z.ltb_spec i 0) as [Ng|Ng].
  - cbn [read_duration]. change (Ascii.eqb "-" "-") with true. cbn iota. destruct (Duration_abs_String (Z.abs i)) as [|x t]; [elim Hd|]. rewrite R. cbn. f_equal. lia.
  - destruct (Duration_abs_String (Z.abs i)) as [|x t]; [elim Hd|]. cbn [read_duration].
    destruct (Ascii.eqb_spec x "-") as [->|_]; [discriminate Hd|]. rewrite R. f_equal. lia.
Qed.
Print Assumptions C110_read_back.
(** intervals with the same text are the same interval *)
Theorem C110_distinct (i j : Z) : int64 i -> int64 j -> Interval_String i = Interval_String j -> i = j.
Proof. intros Hi Hj E. assert (A := C110_read_back i Hi). rewrite E, C110_read_back in A by exact Hj. now injection A. Qed.
Print Assumptions C110_distinct.
Lemma digits_append ds r : digits ds r = (digits ds "" ++ r)%string.
Proof. induction ds as [|d ds IH]; [reflexivity|]. cbn [digits append]. now rewrite IH. Qed.
Lemma fmtInt_decimal v acc : 0 <= v < 10 ^ 20 -> exists t, fmtInt v acc = (t ++ acc)%string /\ decimal t v.
Proof.
  intros H. destruct (fmtInt_spec v acc H) as (ds & -> & Od & Nd & Sh). exists (digits ds ""). split; [apply digits_append|].
  exists ds. split; [now apply take_digits_spec|]. now split.
Qed.
(** an interval of whole seconds that lasts an hour or longer is written as hours, minutes and seconds, each without superfluous
    zeros, minutes and seconds below 60, and without a fraction *)
Theorem C110_hours (h m s : Z) : 1 <= h -> 0 <= m < 60 -> 0 <= s < 60 -> int64 ((h * 3600 + m * 60 + s) * 1000000000) ->
  exists H M S, Interval_String ((h * 3600 + m * 60 + s) * 1000000000) = (H ++ "h" ++ M ++ "m" ++ S ++ "s")%string /\ decimal H h /\ decimal M m /\ decimal S s.
Proof.
  intros Hh Hm Hs [_ U]. unfold Interval_String, Interval_Duration, Duration_String, Duration_abs_String. rewrite Z.abs_eq by lia.
  assert (B : 2 ^ 63 < 10 ^ 20) by reflexivity. set (q := h * 3600 + m * 60 + s) in *. assert (Hq : 3600 <= q) by (unfold q; lia).
  assert (Hhq : h <= q * 1000000000) by (unfold q; lia).
  destruct (Z.ltb_spec (q * 1000000000) 0); [lia|]. destruct (Z.ltb_spec (q * 1000000000) 1000000000); [lia|].
  assert (Ef : fmtFrac (q * 1000000000) 9 "s" = (q, "s"%string)).
  { clear. assert (K : forall n v acc, fmtFracLoop n false (v * 10 ^ Z.of_nat n) acc = (false, v, acc)).
    { induction n as [|n IH]; intros v acc; [cbn; now rewrite Z.mul_1_r|]. cbn [fmtFracLoop].
      replace (v * 10 ^ Z.of_nat (S n)) with (v * 10 ^ Z.of_nat n * 10) by (rewrite Nat2Z.inj_succ, Z.pow_succ_r by lia; lia).
      rewrite Z.mod_mul, Z.div_mul by lia. cbn. apply IH. }
    unfold fmtFrac. change 1000000000 with (10 ^ Z.of_nat 9). now rewrite K. }
  rewrite Ef. cbv zeta.
  assert (Q1 : q mod 60 = s) by (symmetry; apply Z.mod_unique with (h * 60 + m); unfold q; lia).
  assert (Q2 : q / 60 = h * 60 + m) by (symmetry; apply Z.div_unique with s; unfold q; lia).
  assert (Q3 : (h * 60 + m) mod 60 = m) by (symmetry; apply Z.mod_unique with h; lia).
  assert (Q4 : (h * 60 + m) / 60 = h) by (symmetry; apply Z.div_unique with m; lia).
  rewrite Q1, Q2, Q3, Q4. destruct (Z.ltb_spec 0 (h * 60 + m)); [|lia]. destruct (Z.ltb_spec 0 h); [|lia].
  destruct (fmtInt_decimal s "s" ltac:(lia)) as (S & -> & DS). destruct (fmtInt_decimal m (String "m"%char (S ++ "s")) ltac:(lia)) as (M & -> & DM).
  destruct (fmtInt_decimal h (String "h"%char (M ++ String "m"%char (S ++ "s"))) ltac:(lia)) as (Hx & -> & DH).
  exists Hx, M, S. now repeat split.
Qed.
Print Assumptions C110_hours.
(** the names of the package: SevenDay and OneWeek are one interval, all other names are different intervals, with different texts *)
Definition named : list Z :=
  [HundredMilliseconds; ThousandMilliseconds; TenSecond; FifteenSecond; ThirtySecond; OneMin; ThreeMin; FiveMin; TenMin; FifteenMin; ThirtyMin; OneHour; TwoHour; ThreeHour;
   FourHour; SixHour; SevenHour; EightHour; TwelveHour; OneDay; TwoDay; ThreeDay; FiveDay; OneWeek; FifteenDay; TwoWeek; ThreeWeek; OneMonth; ThreeMonth; SixMonth; NineMonth; OneYear].
Theorem C110_named : SevenDay = OneWeek /\ NoDup named /\ NoDup (map Interval_String named) /\ Forall int64 named.
Proof.
  assert (D : NoDup named) by (repeat (constructor; [cbn; intros K; repeat (destruct K as [K|K]; [discriminate K|]); exact K|]); constructor).
  assert (B : Forall int64 named) by (repeat (constructor; [split; [discriminate | reflexivity]|]); constructor).
  repeat split; trivial. clear - D B. induction named as [|i l IH]; [constructor|]. inversion D; inversion B; subst. cbn. constructor; [|now apply IH].
  intros K. apply in_map_iff in K as (j & E & Ij). match goal with X : ~ In i l |- _ => apply X end.
  assert (j = i) by (apply C110_distinct; trivial; rewrite Forall_forall in *; auto). now subst.
Qed.
Print Assumptions C110_named.
Example C110_hyp : int64 OneDay /\ Interval_String OneDay = "24h0m0s"%string /\ Interval_String HundredMilliseconds = "100ms"%string /\
  Interval_String (- 1500000) = "-1.5ms"%string /\ Interval_String 90000000500 = "1m30.0000005s"%string /\ Interval_String 1100 = "1.1µs"%string /\
  Interval_String (- 2 ^ 63) = "-2562047h47m16.854775808s"%string /\ int64 (- 2 ^ 63).
Proof. repeat split; discriminate. Qed.
