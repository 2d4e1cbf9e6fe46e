(** * Sim: running the same program on two related inputs.

    A relation between the numbers of two arithmetics that every operation respects
    carries over to slices, loops and candles.  Numbers carry a dimension, the power
    of the price and the power of the volume they are proportional to, so that the
    relation "multiplied by the change of units" is an instance (Units.v), and so is
    equality (candles that differ in fields a program does not use). *)
From Verif Require Import Base Num Containers Ta Regression Sides Klines IndBase.
Set Implicit Arguments.

(** The fields of a candle that indicators look at. *)
Inductive field := fOpen | fHigh | fLow | fClose | fVolume | fBull.

Class Sim (N1 N2 : Num) : Type := mkSim {
  (** the fields in which the candles are related *)
  use : field -> Prop;
  fr : Z -> Z -> @F N1 -> @F N2 -> Prop;
  trel : Z -> Z -> Prop;
  (** numbers of different dimensions may be mixed *)
  loose : Prop;
  fr_loose : forall i j i' j' x y, loose -> fr i j x y -> fr i' j' x y;
  trel_0 : trel 0 0;
  trel_zero : trel zero_time zero_time;
  trel_unix : forall s t, trel s t -> trel (unix s) (unix t);
  fr_zero : forall i j, fr i j (ofZ 0) (ofZ 0);
  fr_ofZ : forall z, fr 0 0 (ofZ z) (ofZ z);
  fr_lit : forall n d, fr 0 0 (lit n d) (lit n d);
  fr_pi : fr 0 0 fpi fpi;
  fr_add : forall i j x y x' y', fr i j x x' -> fr i j y y' -> fr i j (x +~ y) (x' +~ y');
  fr_sub : forall i j x y x' y', fr i j x x' -> fr i j y y' -> fr i j (x -~ y) (x' -~ y');
  fr_mul : forall i j k l x y x' y', fr i j x x' -> fr k l y y' -> fr (i + k) (j + l) (x *~ y) (x' *~ y');
  fr_div : forall i j k l x y x' y', fr i j x x' -> fr k l y y' -> fr (i - k) (j - l) (x /~ y) (x' /~ y');
  fr_neg : forall i j x x', fr i j x x' -> fr i j (fneg x) (fneg x');
  fr_abs : forall i j x x', fr i j x x' -> fr i j (fabs x) (fabs x');
  fr_sqrt : forall i j x x', fr (i + i) (j + j) x x' -> fr i j (fsqrt x) (fsqrt x');
  fr_lt : forall i j x y x' y', fr i j x x' -> fr i j y y' -> (x <~ y) = (x' <~ y');
  fr_le : forall i j x y x' y', fr i j x x' -> fr i j y y' -> (x <=~ y) = (x' <=~ y');
  fr_eq : forall i j x y x' y', fr i j x x' -> fr i j y y' -> (x ==~ y) = (x' ==~ y');
  fr_nan : forall i j x x', fr i j x x' -> isNaN x = isNaN x';
  fr_pinf : forall i j x x', fr i j x x' -> isPInf x = isPInf x';
  fr_ninf : forall i j x x', fr i j x x' -> isNInf x = isNInf x';
  fr_sign : forall i j x x', fr i j x x' -> signbit x = signbit x';
  fr_round : forall x x', fr 0 0 x x' -> fr 0 0 (fround x) (fround x');
  fr_trunc : forall x x', fr 0 0 x x' -> ftrunc x = ftrunc x';
  fr_atan : forall x x', fr 0 0 x x' -> fr 0 0 (fatan x) (fatan x');
  fr_pow : forall x y x' y', fr 0 0 x x' -> fr 0 0 y y' -> fr 0 0 (fpow x y) (fpow x' y') }.

Arguments fr_loose {N1 N2 Sim} {i j} i' j' {x y} _ _.
Arguments trel_unix {N1 N2 Sim} {s t} _.
Arguments fr_add {N1 N2 Sim} {i j x y x' y'} _ _.
Arguments fr_sub {N1 N2 Sim} {i j x y x' y'} _ _.
Arguments fr_mul {N1 N2 Sim} {i j k l x y x' y'} _ _.
Arguments fr_div {N1 N2 Sim} {i j k l x y x' y'} _ _.
Arguments fr_neg {N1 N2 Sim} {i j x x'} _.
Arguments fr_abs {N1 N2 Sim} {i j x x'} _.
Arguments fr_sqrt {N1 N2 Sim} {i j x x'} _.
Arguments fr_lt {N1 N2 Sim} {i j x y x' y'} _ _.
Arguments fr_le {N1 N2 Sim} {i j x y x' y'} _ _.
Arguments fr_eq {N1 N2 Sim} {i j x y x' y'} _ _.
Arguments fr_nan {N1 N2 Sim} {i j x x'} _.
Arguments fr_pinf {N1 N2 Sim} {i j x x'} _.
Arguments fr_ninf {N1 N2 Sim} {i j x x'} _.
Arguments fr_sign {N1 N2 Sim} {i j x x'} _.
Arguments fr_round {N1 N2 Sim} {x x'} _.
Arguments fr_trunc {N1 N2 Sim} {x x'} _.
Arguments fr_atan {N1 N2 Sim} {x x'} _.
Arguments fr_pow {N1 N2 Sim} {x y x' y'} _ _.

(** ** Relations on results, pairs and lists *)
Definition RR {A B} (P : A -> B -> Prop) (m : res A) (m' : res B) : Prop :=
  match m, m' with Ok a, Ok b => P a b | Panic, Panic => True | _, _ => False end.
Definition PR {A B A' B'} (P : A -> A' -> Prop) (Q : B -> B' -> Prop) (x : A * B) (y : A' * B') : Prop :=
  P (fst x) (fst y) /\ Q (snd x) (snd y).

Lemma pr_intro A B A' B' (P : A -> A' -> Prop) (Q : B -> B' -> Prop) a b a' b' : P a a' -> Q b b' -> PR P Q (a, b) (a', b').
Proof. now split. Qed.
Lemma pr_elim A B A' B' (P : A -> A' -> Prop) (Q : B -> B' -> Prop) a b a' b' : PR P Q (a, b) (a', b') -> P a a' /\ Q b b'.
Proof. now intros [? ?]. Qed.
Lemma rr_ok A B (P : A -> B -> Prop) a b : P a b -> RR P (Ok a) (Ok b).
Proof. exact (fun H => H). Qed.
Lemma rr_panic A B (P : A -> B -> Prop) : RR P Panic Panic.
Proof. exact I. Qed.
Lemma rr_bind A B A' B' (P : A -> A' -> Prop) (Q : B -> B' -> Prop) m m' k k' :
  RR P m m' -> (forall a a', P a a' -> RR Q (k a) (k' a')) -> RR Q (bind m k) (bind m' k').
Proof. destruct m, m'; cbn; intros H Hk; try easy. now apply Hk. Qed.
Lemma rr_mono A B (P Q : A -> B -> Prop) m m' : RR P m m' -> (forall a b, P a b -> Q a b) -> RR Q m m'.
Proof. destruct m, m'; cbn; auto. Qed.
Lemma rr_eq A (m m' : res A) : RR eq m m' -> m = m'.
Proof. destruct m, m'; cbn; congruence || easy. Qed.
Lemma rr_eq_r A (m m' : res A) : m = m' -> RR eq m m'.
Proof. intros <-. destruct m; cbn; auto. Qed.
Lemma rr_refl A (m : res A) : RR eq m m.
Proof. now apply rr_eq_r. Qed.
Lemma rr_rmap A B A' B' (P : A -> A' -> Prop) (Q : B -> B' -> Prop) f f' m m' :
  RR P m m' -> (forall a a', P a a' -> Q (f a) (f' a')) -> RR Q (rmap f m) (rmap f' m').
Proof. destruct m, m'; cbn; auto. Qed.

Section Lists.
Variables (A B : Type) (P : A -> B -> Prop).
Lemma f2_len l l' : Forall2 P l l' -> len l = len l'.
Proof. unfold len. induction 1; cbn [length]; lia. Qed.
Lemma f2_nth l l' : Forall2 P l l' -> forall n, match nth_error l n, nth_error l' n with
  | Some a, Some b => P a b | None, None => True | _, _ => False end.
Proof. induction 1; intros [|n]; cbn; auto. apply IHForall2. Qed.
Lemma rr_get l l' i i' : Forall2 P l l' -> i = i' -> RR P (get l i) (get l' i').
Proof.
  intros H <-. unfold get. destruct (i <? 0); [exact I|].
  pose proof (f2_nth H (Z.to_nat i)) as E. now destruct (nth_error l _), (nth_error l' _).
Qed.
Lemma f2_upd l l' : Forall2 P l l' -> forall n v v', P v v' -> Forall2 P (upd l n v) (upd l' n v').
Proof. induction 1; intros [|n] v v' Hv; cbn; auto. Qed.
Lemma rr_set l l' i i' v v' : Forall2 P l l' -> i = i' -> P v v' -> RR (Forall2 P) (set l i v) (set l' i' v').
Proof.
  intros H <- Hv. unfold set. rewrite <- (f2_len H). destruct (_ && _); [|exact I]. cbn. now apply f2_upd.
Qed.
Lemma f2_repeat a b n : P a b -> Forall2 P (repeat a n) (repeat b n).
Proof. intros H. induction n; cbn; auto. Qed.
Lemma rr_make a b n n' : P a b -> n = n' -> RR (Forall2 P) (make a n) (make b n').
Proof. intros H <-. unfold make. destruct (n <? 0); [exact I|]. cbn. now apply f2_repeat. Qed.
Lemma f2_skipn l l' : Forall2 P l l' -> forall n, Forall2 P (skipn n l) (skipn n l').
Proof. induction 1; intros [|n]; cbn; auto. Qed.
Lemma f2_firstn l l' : Forall2 P l l' -> forall n, Forall2 P (firstn n l) (firstn n l').
Proof. induction 1; intros [|n]; cbn; auto. Qed.
Lemma rr_slice l l' a b a' b' : Forall2 P l l' -> a = a' -> b = b' -> RR (Forall2 P) (slice l a b) (slice l' a' b').
Proof.
  intros H <- <-. unfold slice. rewrite <- (f2_len H). destruct (_ && _); [|exact I]. cbn.
  apply f2_skipn. now apply f2_firstn.
Qed.
Lemma f2_app l l' m m' : Forall2 P l l' -> Forall2 P m m' -> Forall2 P (l ++ m) (l' ++ m').
Proof. apply Forall2_app. Qed.
Lemma f2_snoc l l' x x' : Forall2 P l l' -> P x x' -> Forall2 P (l ++ [x]) (l' ++ [x']).
Proof. intros. apply Forall2_app; auto. Qed.
End Lists.

Lemma rr_for S S' (P : S -> S' -> Prop) lo hi lo' hi' b b' s s' :
  lo = lo' -> hi = hi' -> P s s' ->
  (forall i s s', P s s' -> RR P (b i s) (b' i s')) ->
  RR P (for_ lo hi b s) (for_ lo' hi' b' s').
Proof.
  intros <- <- Hs Hb. unfold for_. generalize (Z.to_nat (hi - lo)) as n. intros n. clear hi. revert lo s s' Hs.
  induction n as [|n IH]; intros lo s s' Hs; cbn [loop]; [exact Hs|].
  eapply rr_bind; [apply Hb, Hs|]. intros a a' Ha. now apply IH.
Qed.
Lemma rr_range A A' S S' (P : A -> A' -> Prop) (Q : S -> S' -> Prop) l l' b b' s s' :
  Forall2 P l l' -> Q s s' ->
  (forall i a a' s s', P a a' -> Q s s' -> RR Q (b i a s) (b' i a' s')) ->
  RR Q (range_ l b s) (range_ l' b' s').
Proof.
  intros Hl Hs Hb. unfold range_. apply rr_for; [reflexivity|apply (f2_len Hl)|exact Hs|].
  intros i t t' Ht. eapply rr_bind; [eapply rr_get; [exact Hl|reflexivity]|]. intros a a' Ha. now apply Hb.
Qed.
Lemma fold_rel A A' S S' (P : A -> A' -> Prop) (Q : S -> S' -> Prop) f f' l l' s s' :
  Forall2 P l l' -> Q s s' -> (forall s s' a a', Q s s' -> P a a' -> Q (f s a) (f' s' a')) ->
  Q (fold_left f l s) (fold_left f' l' s').
Proof. intros Hl Hs Hf. revert s s' Hs. induction Hl; intros s s' Hs; cbn; auto. Qed.

Unset Strict Implicit.
Section Sim.
Context {N1 N2 : Num} {SM : Sim N1 N2}.
Local Notation F1 := (@F N1).
Local Notation F2 := (@F N2).
Definition frs (i j : Z) : list F1 -> list F2 -> Prop := Forall2 (fr i j).
Definition rowR {A B} (P : A -> B -> Prop) (r : row A) (r' : row B) : Prop :=
  trel (rTime r) (rTime r') /\ P (rVal r) (rVal r').
Record CR (k : @Candle N1) (k' : @Candle N2) : Prop := mkCR {
  cr_o : use fOpen -> fr 1 0 (cOpen k) (cOpen k'); cr_h : use fHigh -> fr 1 0 (cHigh k) (cHigh k');
  cr_l : use fLow -> fr 1 0 (cLow k) (cLow k'); cr_c : use fClose -> fr 1 0 (cClose k) (cClose k');
  cr_v : use fVolume -> fr 0 1 (cVolume k) (cVolume k'); cr_b : use fBull -> cBull k = cBull k';
  cr_t : trel (cTime k) (cTime k') }.
Definition uses (l : list field) : Prop := forall f, In f l -> use f.
Record OR (o : @OHLC N1) (o' : @OHLC N2) : Prop := mkOR {
  or_o : use fOpen -> frs 1 0 (oOpen o) (oOpen o'); or_h : use fHigh -> frs 1 0 (oHigh o) (oHigh o');
  or_l : use fLow -> frs 1 0 (oLow o) (oLow o'); or_c : use fClose -> frs 1 0 (oClose o) (oClose o');
  or_v : use fVolume -> frs 0 1 (oVolume o) (oVolume o'); or_b : use fBull -> oBull o = oBull o';
  or_t : Forall2 trel (oTime o) (oTime o');
  or_no : len (oOpen o) = len (oOpen o'); or_nh : len (oHigh o) = len (oHigh o');
  or_nl : len (oLow o) = len (oLow o'); or_nc : len (oClose o) = len (oClose o');
  or_nv : len (oVolume o) = len (oVolume o'); or_nb : len (oBull o) = len (oBull o') }.

Lemma fr_fzero i j : fr i j fzero fzero. Proof. apply fr_zero. Qed.
Lemma fr_mulk i j x x' y y' : fr i j x x' -> fr 0 0 y y' -> fr i j (x *~ y) (x' *~ y').
Proof. intros H1 H2. pose proof (fr_mul H1 H2) as H. now rewrite !Z.add_0_r in H. Qed.
Lemma fr_kmul i j x x' y y' : fr 0 0 x x' -> fr i j y y' -> fr i j (x *~ y) (x' *~ y').
Proof. intros H1 H2. exact (fr_mul H1 H2). Qed.
Lemma fr_divk i j x x' y y' : fr i j x x' -> fr 0 0 y y' -> fr i j (x /~ y) (x' /~ y').
Proof. intros H1 H2. pose proof (fr_div H1 H2) as H. now rewrite !Z.sub_0_r in H. Qed.
Lemma fr_ratio i j x x' y y' : fr i j x x' -> fr i j y y' -> fr 0 0 (x /~ y) (x' /~ y').
Proof. intros H1 H2. pose proof (fr_div H1 H2) as H. now rewrite !Z.sub_diag in H. Qed.
Lemma fr_mulx i j k l m n x y x' y' : fr i j x x' -> fr k l y y' -> m = i + k -> n = j + l -> fr m n (x *~ y) (x' *~ y').
Proof. intros H1 H2 -> ->. exact (fr_mul H1 H2). Qed.
Lemma fr_divx i j k l m n x y x' y' : fr i j x x' -> fr k l y y' -> m = i - k -> n = j - l -> fr m n (x /~ y) (x' /~ y').
Proof. intros H1 H2 -> ->. exact (fr_div H1 H2). Qed.
Lemma fr_if i j (b b' : bool) x y x' y' : b = b' -> fr i j x x' -> fr i j y y' ->
  fr i j (if b then x else y) (if b' then x' else y').
Proof. intros <-. now destruct b. Qed.
Lemma fr_ltz i j x y x' y' : fr i j y y' -> fr i j x x' -> (x <~ y) = (x' <~ y').
Proof. intros. eapply fr_lt; eauto. Qed.
Lemma fr_inf i j x x' : fr i j x x' -> isInf x = isInf x'.
Proof. intros H. unfold isInf. now rewrite (fr_pinf H), (fr_ninf H). Qed.
Lemma fr_fmax i j x y x' y' : fr i j x x' -> fr i j y y' -> fr i j (fmax x y) (fmax x' y').
Proof.
  intros H1 H2. unfold fmax.
  rewrite (fr_pinf H1), (fr_pinf H2), (fr_nan H1), (fr_nan H2), (fr_sign H1), (fr_lt H2 H1), (fr_eq H1 H2), (fr_eq H1 (fr_fzero i j)).
  repeat match goal with |- context[if ?b then _ else _] => destruct b end; assumption.
Qed.
Lemma fr_fmin i j x y x' y' : fr i j x x' -> fr i j y y' -> fr i j (fmin x y) (fmin x' y').
Proof.
  intros H1 H2. unfold fmin.
  rewrite (fr_ninf H1), (fr_ninf H2), (fr_nan H1), (fr_nan H2), (fr_sign H1), (fr_lt H1 H2), (fr_eq H1 H2), (fr_eq H1 (fr_fzero i j)).
  repeat match goal with |- context[if ?b then _ else _] => destruct b end; assumption.
Qed.
Lemma rr_getf i j l l' k k' : frs i j l l' -> k = k' -> RR (fr i j) (get l k) (get l' k').
Proof. apply rr_get. Qed.
Lemma rr_setf i j l l' k k' v v' : frs i j l l' -> k = k' -> fr i j v v' -> RR (frs i j) (set l k v) (set l' k' v').
Proof. apply rr_set. Qed.
Lemma rr_makef i j n n' : n = n' -> RR (frs i j) (make fzero n) (make fzero n').
Proof. apply rr_make, fr_fzero. Qed.
Lemma frs_len i j l l' : frs i j l l' -> len l = len l'.
Proof. apply f2_len. Qed.
End Sim.

(** ** Tactics: [fs] proves that two numbers are related, [bs] that two tests agree,
    [go] walks through two programs of the same shape. *)
Ltac fs :=
  lazymatch goal with
  | |- fr _ _ (if _ then _ else _) (if _ then _ else _) => apply fr_if; [bs|fs|fs]
  | |- _ =>
  first
   [ eassumption
   | apply fr_fzero | apply fr_zero | apply fr_ofZ | apply fr_lit | apply fr_pi
   | match goal with
     | |- fr _ _ (_ +~ _) (_ +~ _) => apply fr_add; [fs|fs]
     | |- fr _ _ (_ -~ _) (_ -~ _) => apply fr_sub; [fs|fs]
     | |- fr _ _ (_ *~ _) (_ *~ _) => apply fr_mulk; [fs|fs]
     | |- fr _ _ (_ *~ _) (_ *~ _) => apply fr_kmul; [fs|fs]
     | |- fr _ _ (_ *~ _) (_ *~ _) => eapply fr_mulx; [fs|fs|lia|lia]
     | |- fr _ _ (_ /~ _) (_ /~ _) => apply fr_divk; [fs|fs]
     | |- fr _ _ (_ /~ _) (_ /~ _) => eapply fr_divx; [fs|fs|lia|lia]
     | |- fr _ _ (fneg _) (fneg _) => apply fr_neg; fs
     | |- fr _ _ (fabs _) (fabs _) => apply fr_abs; fs
     | |- fr _ _ (fsqrt _) (fsqrt _) => apply fr_sqrt; fs
     | |- fr _ _ (fmax _ _) (fmax _ _) => apply fr_fmax; [fs|fs]
     | |- fr _ _ (fmin _ _) (fmin _ _) => apply fr_fmin; [fs|fs]
     | |- fr _ _ (fround _) (fround _) => apply fr_round; fs
     | |- fr _ _ (fatan _) (fatan _) => apply fr_atan; fs
     | |- fr _ _ (fpow _ _) (fpow _ _) => apply fr_pow; [fs|fs]
     end ]
  end
with bs :=
  lazymatch goal with
  | |- ?a = ?a => reflexivity
  | |- (_ && _) = (_ && _) => apply f_equal2; [bs|bs]
  | |- (_ || _) = (_ || _) => apply f_equal2; [bs|bs]
  | |- negb _ = negb _ => apply f_equal; bs
  | |- (_ <~ _) = (_ <~ _) => first [eapply fr_lt; [solve [fs]|solve [fs]] | eapply fr_ltz; [solve [fs]|solve [fs]]]
  | |- (_ <=~ _) = (_ <=~ _) => eapply fr_le; [fs|fs]
  | |- (_ ==~ _) = (_ ==~ _) => eapply fr_eq; [fs|fs]
  | |- isNaN _ = isNaN _ => eapply fr_nan; fs
  | |- isInf _ = isInf _ => eapply fr_inf; fs
  | |- isPInf _ = isPInf _ => eapply fr_pinf; fs
  | |- isNInf _ = isNInf _ => eapply fr_ninf; fs
  | |- _ => congruence
  end.
(** equality of lengths and indices *)
Ltac ls :=
  first [ reflexivity | assumption
        | repeat match goal with
          | H : Forall2 _ ?l ?m |- context[len ?l] => rewrite (f2_len H)
          | H : frs _ _ ?l ?m |- context[len ?l] => rewrite (frs_len H)
          end; first [reflexivity | congruence | lia] ].
Ltac open_pairs :=
  repeat match goal with
  | H : PR _ _ ?x ?y |- _ => destruct x, y; apply pr_elim in H; destruct H
  | H : rowR _ _ _ |- _ => destruct H
  end; cbv beta iota.
(** the relation of a new value of a slice, a pair ... *)
Ltac vs :=
  lazymatch goal with
  | |- PR _ _ (_, _) (_, _) => apply pr_intro; [vs|vs]
  | |- fr _ _ _ _ => fs
  | |- ?a = ?b => first [bs | ls]
  | |- Forall2 _ [] [] => constructor
  | |- frs _ _ [] [] => constructor
  | |- frs _ _ (_ ++ [_]) (_ ++ [_]) => apply f2_snoc; [assumption|vs]
  | |- rowR _ (mkRow _ _) (mkRow _ _) => split; cbn [rTime rVal]; vs
  | |- Forall2 _ (_ ++ [_]) (_ ++ [_]) => apply f2_snoc; [assumption|vs]
  | |- _ => first [assumption | eassumption]
  end.
(** the facts about the fields in use *)
Ltac fld := repeat match goal with
  | H : use ?f -> _, U : uses ?l |- _ => specialize (H (U f ltac:(cbn; tauto)))
  | H : use ?f -> _, U : use ?f |- _ => specialize (H U)
  end.
Ltac us := let f := fresh in let H := fresh in intros f H; match goal with U : uses _ |- use f => apply U; cbn in *; tauto end.
Create HintDb sim discriminated.
Ltac go1 :=
  lazymatch goal with
  | |- RR _ (get _ _) (get _ _) => first [eapply rr_getf; [eassumption|ls] | eapply rr_get; [eassumption|ls]]
  | |- RR _ (set _ _ _) (set _ _ _) => first [eapply rr_setf; [eassumption|ls|solve [vs]] | eapply rr_set; [eassumption|ls|solve [vs]]]
  | |- RR _ (make _ _) (make _ _) => first [eapply rr_makef; ls | eapply rr_make; [solve [vs]|ls]]
  | |- RR _ (slice _ _ _) (slice _ _ _) => eapply rr_slice; [eassumption|ls|ls]
  | |- RR _ (zmod _ _) (zmod _ _) => apply rr_eq_r; ls
  | |- RR _ Panic Panic => exact I
  | |- _ => solve [eauto with sim]
  end.
Ltac go :=
  lazymatch goal with
  | |- RR _ (bind _ _) (bind _ _) => eapply rr_bind; [solve [go1] | intros ? ? ?; open_pairs; subst; try go]
  | |- RR _ (Ok _) (Ok _) => apply rr_ok; try solve [vs]
  | |- RR _ (if ?b then _ else _) (if ?b then _ else _) => destruct b; try go
  | |- RR _ (if ?b then _ else _) (if ?b' then _ else _) =>
      replace b' with b by (first [bs | ls]); destruct b; try go
  | |- _ => solve [go1]
  end.
(** the relation of an intermediate value that is not a single call *)
Tactic Notation "mid" uconstr(X) := eapply rr_bind with (P := X); [try go | intros ? ? ?; open_pairs; subst; try go].
(** a loop with the given relation between the states *)
Tactic Notation "loop" uconstr(P) := eapply (rr_for P); [ls | ls | try solve [vs] | intros ? ? ? ?; open_pairs; try go].
Tactic Notation "rloop" uconstr(P) := eapply (@rr_range _ _ _ _ _ P); [eassumption | try solve [vs] | intros ? ? ? ? ? ? ?; open_pairs; try go].
Tactic Notation "bloop" uconstr(X) := eapply rr_bind with (P := X); [loop X | intros ? ? ?; open_pairs; subst; try go].
Tactic Notation "brloop" uconstr(X) := eapply rr_bind with (P := X); [rloop X | intros ? ? ?; open_pairs; subst; try go].
