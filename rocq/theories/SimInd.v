(** * SimInd: the indicators respect every relation of Sim.v. *)
From Verif Require Import Base Num Containers Ta Regression Sides Klines KlineProofs3 IndBase IndTrend IndChannel IndVolume IndOsc Sim SimTa.
Set Implicit Arguments.
Unset Strict Implicit.

Section SimInd.
Context {N1 N2 : Num} {SM : Sim N1 N2}.
Local Notation F1 := (@F N1).
Local Notation F2 := (@F N2).
Local Notation krel := (Forall2 CR).

Lemma f2_map A B A' B' (P : A -> B -> Prop) (Q : A' -> B' -> Prop) (f : A -> A') (g : B -> B') l l' :
  Forall2 P l l' -> (forall a b, P a b -> Q (f a) (g b)) -> Forall2 Q (map f l) (map g l').
Proof. intros H Hf. induction H; cbn; auto. Qed.
Lemma map_eq2 A B C (P : A -> B -> Prop) (f : A -> C) (g : B -> C) l l' :
  Forall2 P l l' -> (forall a b, P a b -> f a = g b) -> map f l = map g l'.
Proof. intros H Hf. induction H; cbn; f_equal; auto. Qed.
Lemma GetOHLC_s kl kl' : krel kl kl' -> RR OR (GetOHLC kl) (GetOHLC kl').
Proof.
  intros H. rewrite !GetOHLC_spec. apply rr_ok. pose proof (f2_len H) as Hn.
  constructor; cbn; rewrite ?len_map; try exact Hn; unfold frs.
  1-5: intros U; apply (f2_map H); intros k k' []; auto.
  - intros U. apply (map_eq2 H). intros k k' []; auto.
  - apply (f2_map H). now intros k k' [].
Qed.
Lemma percandle_s i j f f' kl kl' : (forall k k', CR k k' -> fr i j (f k) (f' k')) -> krel kl kl' ->
  RR (frs i j) (percandle f kl) (percandle f' kl').
Proof.
  intros Hf H. unfold percandle. go. rloop (frs i j). eapply rr_setf; [eassumption|ls|now apply Hf].
Qed.
Lemma HL2_s kl kl' : uses [fHigh; fLow] -> krel kl kl' -> RR (frs 1 0) (HL2 kl) (HL2 kl').
Proof. intros U. apply percandle_s. intros k k' []. fld. fs. Qed.
Lemma HLC3_s kl kl' : uses [fHigh; fLow; fClose] -> krel kl kl' -> RR (frs 1 0) (HLC3 kl) (HLC3 kl').
Proof. intros U. apply percandle_s. intros k k' []. fld. fs. Qed.
Lemma time_at_s kl kl' i : krel kl kl' -> RR trel (time_at kl i) (time_at kl' i).
Proof. intros H. unfold time_at. eapply rr_bind; [go1|]. intros k k' []. cbn. now apply trel_unix. Qed.
Lemma time_in_s ts ts' i : Forall2 trel ts ts' -> RR trel (time_in ts i) (time_in ts' i).
Proof. intros H. unfold time_in. eapply rr_bind; [eapply rr_get; eauto|]. intros. cbn. now apply trel_unix. Qed.
Lemma append_rows_s A B (P : A -> B -> Prop) tm tm' n n' f f' d d' :
  (forall i, RR trel (tm i) (tm' i)) -> n = n' -> Forall2 (rowR P) d d' ->
  (forall i, RR P (f i) (f' i)) -> RR (Forall2 (rowR P)) (append_rows tm n f d) (append_rows tm' n' f' d').
Proof.
  intros Ht <- Hd Hf. unfold append_rows. eapply (rr_for (Forall2 (rowR P))); [ls|ls|exact Hd|].
  intros i s s' Hs. eapply rr_bind; [apply Ht|]. intros. eapply rr_bind; [apply Hf|]. intros. cbn.
  apply f2_snoc; [exact Hs|]. now split.
Qed.
Lemma make_rows_s A B (P : A -> B -> Prop) z z' size size' tm tm' lo n n' f f' :
  P z z' -> size = size' -> n = n' -> (forall i, RR trel (tm i) (tm' i)) ->
  (forall i, RR P (f i) (f' i)) -> RR (Forall2 (rowR P)) (make_rows z size tm lo n f) (make_rows z' size' tm' lo n' f').
Proof.
  intros Hz <- <- Ht Hf. unfold make_rows.
  eapply rr_bind; [eapply (@rr_make _ _ (rowR P)); [split; [apply trel_zero|exact Hz]|ls]|]. intros.
  eapply (rr_for (Forall2 (rowR P))); [ls|ls|eassumption|].
  intros i s s' Hs. eapply rr_bind; [apply Ht|]. intros. eapply rr_bind; [apply Hf|]. intros.
  eapply rr_set; [exact Hs|ls|]. now split.
Qed.
Lemma values_s A B (P : A -> B -> Prop) i j f f' d d' : (forall v v', P v v' -> fr i j (f v) (f' v')) ->
  Forall2 (rowR P) d d' -> RR (frs i j) (values f d) (values f' d').
Proof.
  intros Hf H. unfold values. eapply rr_bind; [eapply rr_makef; ls|intros]. rloop (frs i j).
  eapply rr_setf; [eassumption|ls|]. auto.
Qed.
Lemma values_app_s A B (P : A -> B -> Prop) i j f f' d d' : (forall v v', P v v' -> fr i j (f v) (f' v')) ->
  Forall2 (rowR P) d d' -> RR (frs i j) (values_app f d) (values_app f' d').
Proof.
  intros Hf H. unfold values_app. rloop (frs i j).
  apply f2_snoc; [assumption|]. auto.
Qed.
Lemma analyse_s A B (P : A -> B -> Prop) n n' from d d' rule rule' :
  n = n' -> Forall2 (rowR P) d d' ->
  (forall i v v' p p', P v v' -> P p p' -> RR eq (rule i v p) (rule' i v' p')) ->
  RR eq (analyse n from d rule) (analyse n' from d' rule').
Proof.
  intros <- H Hr. unfold analyse. eapply rr_bind; [apply rr_refl|]. intros s s' <-.
  eapply (@rr_range _ _ _ _ (rowR P)); [exact H|reflexivity|].
  intros i a a' s1 s1' [_ Ha] <-. destruct (i <? from); [reflexivity|].
  eapply rr_bind; [go1|]. intros b b' [_ Hb]. eapply rr_bind; [now apply Hr|]. intros x x' <-. apply rr_refl.
Qed.
Lemma crossing_s A B (P : A -> B -> Prop) kl kl' d d' b b' s s' :
  krel kl kl' -> Forall2 (rowR P) d d' ->
  (forall v v' p p', P v v' -> P p p' -> b v p = b' v' p' /\ s v p = s' v' p') ->
  RR eq (crossing kl d b s) (crossing kl' d' b' s').
Proof.
  intros Hk H Hr. unfold crossing. eapply analyse_s; [ls|exact H|].
  intros i v v' p p' Hv Hp. destruct (Hr v v' p p' Hv Hp) as [-> ->]. reflexivity.
Qed.
Lemma price_crossing_s A B (P : A -> B -> Prop) kl kl' d d' b b' s s' :
  use fClose -> krel kl kl' -> Forall2 (rowR P) d d' ->
  (forall x x' y y' v v' p p', fr 1 0 x x' -> fr 1 0 y y' -> P v v' -> P p p' -> b x y v p = b' x' y' v' p' /\ s x y v p = s' x' y' v' p') ->
  RR eq (price_crossing kl d b s) (price_crossing kl' d' b' s').
Proof.
  intros U Hk H Hr. unfold price_crossing. eapply rr_bind; [apply GetOHLC_s; eassumption|]. intros o o' []. fld.
  eapply analyse_s; [ls|exact H|].
  intros i v v' p p' Hv Hp. eapply rr_bind; [go1|]. intros x x' Hx. eapply rr_bind; [go1|]. intros y y' Hy.
  destruct (Hr x x' y y' v v' p p') as [-> ->]; auto. reflexivity.
Qed.
Lemma sides_s (I1 : @Indicator N1) (I2 : @Indicator N2) (R : list (row (Val I1)) -> list (row (Val I2)) -> Prop) p p' kl kl' f f' :
  Sides I1 = Some f -> Sides I2 = Some f' -> RR R (rows_of I1 p kl) (rows_of I2 p' kl') ->
  (forall d d', R d d' -> RR eq (f p kl d) (f' p' kl' d')) ->
  RR eq (sides_of I1 p kl) (sides_of I2 p' kl').
Proof.
  intros E1 E2 H Hf. unfold sides_of, AnalysisSide. rewrite E1, E2.
  eapply (@rr_rmap _ _ _ _ (fun x y => snd x = snd y)); [|auto].
  eapply rr_bind; [exact H|]. intros d d' Hd. eapply rr_bind; [now apply Hf|]. intros s s' <-. reflexivity.
Qed.
End SimInd.
#[export] Hint Extern 1 (uses _) => us : sim.
#[export] Hint Resolve time_at_s time_in_s HL2_s HLC3_s : sim.
(** GetOHLC in front *)
Ltac ohlc := eapply rr_bind; [apply GetOHLC_s; eassumption|]; intros ? ? []; fld.
Ltac app := eapply append_rows_s; [intros ?; go1|ls|try constructor|intros ?; try go].
Ltac mkr := eapply make_rows_s; [try solve [vs]|ls|ls|intros ?; go1|intros ?; try go].
