(** * IndFormsSpec: the vocabulary of SpecInd2 on series written [tab n f]. *)
From Verif Require Import Base Num Order XReal Rounding FloatLaws Containers Ta TaTools TaElem TaAvg SpecTa Sides Klines
  KlineProofs3 IndBase IndTrend IndChannel IndVolume IndOsc IndTools SpecInd2 IndForms IndForms2.
Set Implicit Arguments.

Section T.
Context {N : Num}.

Lemma combine_tab A B n (f : nat -> A) (g : nat -> B) : combine (tab n f) (tab n g) = tab n (fun i => (f i, g i)).
Proof. unfold tab. induction (seq 0 n) as [|k l IH]; cbn; [reflexivity|now rewrite IH]. Qed.
Lemma pointwise_T A B D (h : A -> B -> D) n f g : pointwise h (tab n f) (tab n g) = tab n (fun i => h (f i) (g i)).
Proof. unfold pointwise. now rewrite combine_tab, tabmap. Qed.
Lemma column_T A B (f : A -> B) n t (g : nat -> A) : column f (tab n (fun i => mkRow (t i) (g i))) = tab n (fun i => f (g i)).
Proof. unfold column. now rewrite tabmap. Qed.
Lemma tab_some A n (f : nat -> A) i x : nth_error (tab n f) i = Some x -> (i < n)%nat /\ x = f i.
Proof.
  intros E. assert (i < n)%nat by (rewrite <- (tab_length n f); apply nth_error_Some; congruence).
  split; [assumption|]. rewrite tab_nth_error in E by assumption. congruence.
Qed.
Lemma ema_of_T p n f : ema_of p (tab n f) (tab n (emaF p f)).
Proof.
  split; [now rewrite !tab_length|]. split.
  - destruct n; [reflexivity|]. now rewrite !tab_nth_error by lia.
  - intros i x y y' Hx Hy Hy'. apply tab_some in Hx as [Hi ->]. apply tab_some in Hy as [_ ->]. apply tab_some in Hy' as [_ ->].
    reflexivity.
Qed.
Lemma list_ext X (l l' : list X) : (forall i, nth_error l i = nth_error l' i) -> l = l'.
Proof.
  revert l'; induction l as [|x l IH]; intros [|y l'] E; [reflexivity|discriminate (E 0%nat)|discriminate (E 0%nat)|].
  pose proof (E 0%nat) as E0. injection E0 as ->. f_equal. apply IH. intros i. exact (E (S i)).
Qed.
Lemma nth_error_firstn_lt X (l : list X) n i : (i < n)%nat -> nth_error (firstn n l) i = nth_error l i.
Proof. revert n l; induction i as [|i IH]; intros [|n] [|x l] Hi; try lia; try reflexivity. cbn. apply IH. lia. Qed.
Lemma previous_T A (d : A) n f : previous d (tab n f) = tab n (fun i => match i with O => d | S j => f j end).
Proof.
  unfold previous. rewrite tab_length. apply list_ext. intros i.
  destruct (Nat.lt_ge_cases i n) as [Hi|Hi].
  - rewrite tab_nth_error by exact Hi. rewrite nth_error_firstn_lt by exact Hi.
    destruct i as [|j]; [reflexivity|]. cbn. apply tab_nth_error. lia.
  - rewrite (proj2 (nth_error_None _ _)), (proj2 (nth_error_None _ _)); [reflexivity|rewrite tab_length; exact Hi|].
    rewrite firstn_length. lia.
Qed.
Lemma ratio_clean a b : div_clean a b = ratio a b.
Proof. unfold div_clean, ratio, isInf, fzero. cbn zeta. rewrite orb_assoc. reflexivity. Qed.

Section Arith.
Variable okv : F -> Prop.
Hypothesis A : ArithLaws N okv.
Lemma emaF_ok p f n : (forall i, (i < n)%nat -> okv (f i)) -> forall i, (i < n)%nat -> okv (emaF p f i).
Proof.
  intros Hf i. induction i as [|i IH]; intros Hi; cbn [emaF]; [now apply Hf|].
  apply (al_div A); [|apply (al_Z A)]. apply (al_add A); apply (al_mul A); auto using (al_Z A). apply IH. lia.
Qed.
Lemma ratio_ok a b : okv a -> okv b -> okv (ratio a b).
Proof. intros. unfold ratio. destruct (_ || _); [apply (al_Z A)|now apply (al_div A)]. Qed.
Lemma okv_cn (f : Candle -> F) kl : Forall okv (map f kl) -> forall i, (i < length kl)%nat -> okv (f (cn kl i)).
Proof.
  intros Hf i Hi. rewrite Forall_forall in Hf. apply Hf. apply in_map. unfold cn. now apply nth_In.
Qed.
End Arith.
End T.
