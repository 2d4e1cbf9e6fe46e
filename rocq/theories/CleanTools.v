(** * CleanTools: removing duplicates and removing outside a range commute. *)
From Coq Require Import String Lia Permutation.
From Verif Require Import Base Num Klines SpecKlines RescaleTools.
Set Implicit Arguments.
Open Scope Z_scope.

Section Clean.
Context {N : Num}.
Local Notation entry := (nat * Candle)%type.
Definition time_of (x : entry) : Z := cTime (snd x).
Definition firsts (l : list entry) : list entry := select (is_first l) l.

Lemma flat_map_ext_in' A B (f g : A -> list B) l : (forall x, In x l -> f x = g x) -> flat_map f l = flat_map g l.
Proof. induction l as [|x l IH]; intros H; [reflexivity|]. cbn. rewrite (H x) by now left. f_equal. apply IH. intros y Hy. apply H. now right. Qed.
Lemma firsts_snoc (l : list entry) x :
  firsts (l ++ [x]) = firsts l ++ (if forallb (fun y => negb (time_of y =? time_of x)) l then [x] else []).
Proof.
  unfold firsts, select. rewrite app_length. cbn [length]. rewrite Nat.add_1_r, seq_S, flat_map_app. cbn [flat_map Nat.add]. rewrite app_nil_r. f_equal.
  - apply flat_map_ext_in'. intros i Hi. apply in_seq in Hi. unfold is_first. rewrite nth_error_app1 by lia. rewrite firstn_app.
    replace (i - length l)%nat with 0%nat by lia. cbn [firstn]. now rewrite app_nil_r.
  - unfold is_first. rewrite nth_error_app2, Nat.sub_diag by lia. cbn [nth_error]. destruct x as [p c]. rewrite firstn_app, Nat.sub_diag, firstn_all. cbn [firstn]. rewrite app_nil_r. reflexivity.
Qed.
Lemma firsts_filter (P : Z -> bool) (l : list entry) :
  firsts (filter (fun x => P (time_of x)) l) = filter (fun x => P (time_of x)) (firsts l).
Proof.
  induction l as [|x l IH] using rev_ind; [reflexivity|]. rewrite firsts_snoc, !filter_app. cbn [filter]. destruct (P (time_of x)) eqn:Px.
  - rewrite firsts_snoc, IH. f_equal.
    replace (forallb (fun y => negb (time_of y =? time_of x)) (filter (fun x => P (time_of x)) l)) with (forallb (fun y => negb (time_of y =? time_of x)) l).
    + destruct (forallb _ l); cbn [filter]; [now rewrite Px|reflexivity].
    + clear IH. induction l as [|y l IHl]; [reflexivity|]. cbn [forallb filter]. destruct (P (time_of y)) eqn:Py; cbn [forallb]; rewrite IHl; [reflexivity|].
      destruct (Z.eqb_spec (time_of y) (time_of x)) as [E|E]; [congruence|reflexivity].
  - rewrite app_nil_r, IH. destruct (forallb _ l); cbn [filter]; rewrite ?Px, app_nil_r; reflexivity.
Qed.
Lemma shows_same (m : Mem) e (l l' : list entry) : shows m e l -> shows m e l' -> l = l'.
Proof.
  intros (_ & L & A & F) (_ & L' & A' & F'). assert (E : length l = length l') by (unfold len in *; lia). rewrite E, A' in A. clear L L' A' E.
  revert l' A F'. induction l as [|[p c] l IH]; intros [|[p' c'] l'] A F'; cbn in A; try discriminate; [reflexivity|]. injection A as <- A.
  inversion F as [|x1 x2 Fx Fl]; subst. inversion F' as [|y1 y2 Fy Fl']; subst. cbn in Fx, Fy. rewrite Fy in Fx. injection Fx as ->. f_equal. now apply IH.
Qed.
(** a list with a strict order of its times is determined by its members *)
Lemma sorted_unique (R : Z -> Z -> Prop) (Rasym : forall a b, R a b -> R b a -> a = b) :
  forall l l' : list Candle, NoDup (map cTime l) -> Permutation l l' ->
  (forall i j a b, (i < j)%nat -> nth_error l i = Some a -> nth_error l j = Some b -> R (cTime a) (cTime b)) ->
  (forall i j a b, (i < j)%nat -> nth_error l' i = Some a -> nth_error l' j = Some b -> R (cTime a) (cTime b)) -> l = l'.
Proof.
  induction l as [|x l IH]; intros l' Nd P S S'; [now apply Permutation_nil in P|]. destruct l' as [|y l']; [symmetry in P; now apply Permutation_nil in P|].
  assert (x = y).
  { assert (Hx : In x (y :: l')) by (eapply Permutation_in; [exact P|now left]). assert (Hy : In y (x :: l)) by (eapply Permutation_in; [symmetry; exact P|now left]).
    destruct Hx as [<-|Hx]; [reflexivity|]. destruct Hy as [<-|Hy]; [reflexivity|].
    apply In_nth_error in Hx. destruct Hx as [i Hi]. apply In_nth_error in Hy. destruct Hy as [j Hj].
    pose proof (S 0%nat (Datatypes.S j) x y ltac:(lia) eq_refl Hj) as A1. pose proof (S' 0%nat (Datatypes.S i) y x ltac:(lia) eq_refl Hi) as A2.
    pose proof (Rasym _ _ A1 A2) as E. exfalso. cbn in Nd. inversion Nd as [|? ? Hn _]; subst. apply Hn. rewrite E. apply in_map. exact (nth_error_In _ _ Hj). }
  subst y. f_equal. apply IH.
  - now inversion Nd.
  - now apply Permutation_cons_inv in P.
  - intros i j a b Hij Ha Hb. apply (S (Datatypes.S i) (Datatypes.S j)); auto. lia.
  - intros i j a b Hij Ha Hb. apply (S' (Datatypes.S i) (Datatypes.S j)); auto. lia.
Qed.
End Clean.
