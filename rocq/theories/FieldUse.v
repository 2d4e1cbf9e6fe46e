(** * FieldUse: equality as an instance of Sim.v (used by PropFields.v). *)
From Verif Require Import Base Num Containers Ta Regression Sides Klines IndBase IndTrend IndChannel IndVolume IndOsc Sim SimTa SimInd SimAll SimRest.
Set Implicit Arguments.

Section EqSim.
Context {N : Num}.
(** the same numbers; times related by [T]; candles equal in the fields of [l] *)
Definition eq_sim (T : Z -> Z -> Prop) (T0 : T 0 0) (Tz : T zero_time zero_time)
    (Tu : forall s t, T s t -> T (unix s) (unix t)) (l : list field) : Sim N N.
Proof.
  refine (@mkSim N N (fun f => In f l) (fun _ _ => eq) T True _ T0 Tz Tu _ _ _ _ _ _ _ _ _ _ _ _ _ _ _ _ _ _ _ _ _ _); intros; subst; reflexivity.
Defined.
Definition anytime (l : list field) : Sim N N := eq_sim (fun _ _ => True) I I (fun _ _ _ => I) l.
Definition sametime (l : list field) : Sim N N := eq_sim eq eq_refl eq_refl (fun s t H => f_equal unix H) l.

Definition vals (I : Indicator) (p : Param I) (kl : list Candle) : res (list (Val I)) := rmap (map (@rVal (Val I))) (rows_of I p kl).
Lemma vals_of (SM : Sim N N) (I : Indicator) (P : Val I -> Val I -> Prop) p p' kl kl' :
  (forall v v', P v v' -> v = v') -> RR (Forall2 (rowR P)) (rows_of I p kl) (rows_of I p' kl') -> vals I p kl = vals I p' kl'.
Proof.
  intros HP H. apply rr_eq. unfold vals. eapply rr_rmap; [exact H|]. cbn. intros d d' Hd.
  apply (map_eq2 Hd). intros r r' [_ Hr]. now apply HP.
Qed.
End EqSim.
Arguments vals {N} I p kl.
