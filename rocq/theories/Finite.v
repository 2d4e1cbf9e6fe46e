(** * Finite: what a run of the vector functions of utils/ta keeps true of the numbers, in exact arithmetic.

    A unary logic for panicking programs: [Kp P m] says that whatever [m] returns satisfies [P].  It is used with
    "is a finite number" (PropFinite.v). *)
From Coq Require Import Reals Lra ZArith Lia Bool List.
From Verif Require Import Base Num XReal XrMore Containers Ta Regression Klines IndBase KlineProofs3.
Import ListNotations.
Set Implicit Arguments.
Unset Strict Implicit.
Open Scope Z_scope.

Definition Kp {A} (P : A -> Prop) (m : res A) : Prop := match m with Ok a => P a | Panic => True end.
Definition PK {A B} (P : A -> Prop) (Q : B -> Prop) (x : A * B) : Prop := P (fst x) /\ Q (snd x).
Lemma pk_intro A B (P : A -> Prop) (Q : B -> Prop) a b : P a -> Q b -> PK P Q (a, b).
Proof. now split. Qed.
Lemma pk_elim A B (P : A -> Prop) (Q : B -> Prop) a b : PK P Q (a, b) -> P a /\ Q b.
Proof. now intros []. Qed.
Lemma kp_bind A B (P : A -> Prop) (Q : B -> Prop) m k : Kp P m -> (forall a, P a -> Kp Q (k a)) -> Kp Q (bind m k).
Proof. destruct m; cbn; auto. Qed.
Lemma kp_mono A (P Q : A -> Prop) m : Kp P m -> (forall a, P a -> Q a) -> Kp Q m.
Proof. destruct m; cbn; auto. Qed.
Lemma kp_any A (m : res A) : Kp (fun _ => True) m.
Proof. destruct m; cbn; auto. Qed.

Section Lists.
Variables (A : Type) (P : A -> Prop).
Lemma kp_get l i : Forall P l -> Kp P (get l i).
Proof.
  intros H. unfold get. destruct (i <? 0); [exact I|]. destruct (nth_error l (Z.to_nat i)) eqn:E; [|exact I]. cbn.
  eapply Forall_forall; [exact H|]. eapply nth_error_In, E.
Qed.
Lemma fa_upd l n v : Forall P l -> P v -> Forall P (upd l n v).
Proof. intros H Hv. revert n. induction H; intros [|n]; cbn; auto. Qed.
Lemma kp_set l i v : Forall P l -> P v -> Kp (Forall P) (set l i v).
Proof. intros H Hv. unfold set. destruct (_ && _); [|exact I]. cbn. now apply fa_upd. Qed.
Lemma kp_make a n : P a -> Kp (Forall P) (make a n).
Proof. intros H. unfold make. destruct (n <? 0); [exact I|]. cbn. apply Forall_forall. intros x Hx. apply repeat_spec in Hx. now subst. Qed.
Lemma fa_skipn l : Forall P l -> forall n, Forall P (skipn n l).
Proof. induction 1; intros [|n]; cbn; auto. Qed.
Lemma fa_firstn l : Forall P l -> forall n, Forall P (firstn n l).
Proof. induction 1; intros [|n]; cbn; auto. Qed.
Lemma kp_slice l a b : Forall P l -> Kp (Forall P) (slice l a b).
Proof. intros H. unfold slice. destruct (_ && _); [|exact I]. cbn. apply fa_skipn. now apply fa_firstn. Qed.
Lemma fa_snoc l x : Forall P l -> P x -> Forall P (l ++ [x]).
Proof. intros. apply Forall_app; split; auto. Qed.
End Lists.
Lemma kp_for S (P : S -> Prop) lo hi b s : P s -> (forall i s, lo <= i < hi -> P s -> Kp P (b i s)) -> Kp P (for_ lo hi b s).
Proof.
  intros Hs Hb. destruct (Z.le_gt_cases lo hi) as [L|L].
  - destruct (for_ lo hi b s) as [s'|] eqn:E; [|exact I].
    refine (@for_inv_ok S (fun _ => P) lo hi b s s' L Hs _ E). intros i t t1 Hi Ht E1. specialize (Hb i t Hi Ht). now rewrite E1 in Hb.
  - unfold for_. replace (Z.to_nat (hi - lo)) with O by lia. exact Hs.
Qed.
Lemma kp_range A S (P : A -> Prop) (Q : S -> Prop) l b s : Forall P l -> Q s ->
  (forall i a s, 0 <= i < len l -> P a -> Q s -> Kp Q (b i a s)) -> Kp Q (range_ l b s).
Proof.
  intros Hl Hs Hb. unfold range_. apply kp_for; [exact Hs|]. intros i t Hi Ht. eapply kp_bind; [apply kp_get, Hl|]. intros. now apply Hb.
Qed.

(** ** Finite numbers *)
Local Notation X := (@F XR).
Definition Fi (x : X) : Prop := exists r, x = Fin r.
Definition nz (x : X) : Prop := exists r, x = Fin r /\ r <> 0%R.
Definition Po (x : X) : Prop := exists r, x = Fin r /\ (0 < r)%R.
Definition Fis : list X -> Prop := Forall Fi.
Lemma Po_Fi x : Po x -> Fi x. Proof. intros (r & -> & _). now exists r. Qed.
Lemma Po_nz x : Po x -> nz x. Proof. intros (r & -> & H). exists r. split; [reflexivity|lra]. Qed.
Lemma nz_Fi x : nz x -> Fi x. Proof. intros (r & -> & _). now exists r. Qed.
Lemma Fi_ofZ z : Fi (ofZ z). Proof. now exists (IZR z). Qed.
Lemma Fi_zero : Fi fzero. Proof. apply Fi_ofZ. Qed.
Lemma Fi_lit n d : Fi (lit n d). Proof. now eexists. Qed.
Lemma Fi_add x y : Fi x -> Fi y -> Fi (x +~ y). Proof. intros [a ->] [b ->]. now eexists. Qed.
Lemma Fi_sub x y : Fi x -> Fi y -> Fi (x -~ y). Proof. intros [a ->] [b ->]. now eexists. Qed.
Lemma Fi_mul x y : Fi x -> Fi y -> Fi (x *~ y). Proof. intros [a ->] [b ->]. now eexists. Qed.
Lemma Fi_neg x : Fi x -> Fi (fneg x). Proof. intros [a ->]. now eexists. Qed.
Lemma Fi_abs x : Fi x -> Fi (fabs x). Proof. intros [a ->]. now eexists. Qed.
Lemma Fi_max x y : Fi x -> Fi y -> Fi (fmax x y). Proof. intros [a ->] [b ->]. eexists. apply xr_max. Qed.
Lemma Fi_min x y : Fi x -> Fi y -> Fi (fmin x y). Proof. intros [a ->] [b ->]. eexists. apply xr_min. Qed.
Lemma Fi_div x y : Fi x -> nz y -> Fi (x /~ y).
Proof. intros [a ->] (b & -> & H). eexists. now apply xdiv_fin. Qed.
Lemma Fi_if (b : bool) x y : (b = true -> Fi x) -> (b = false -> Fi y) -> Fi (if b then x else y).
Proof. destruct b; auto. Qed.
Lemma Fi_nan x : Fi x -> isNaN x = false. Proof. now intros [a ->]. Qed.
Lemma Fi_Nz x y : Fi x -> Fi (Nz x y). Proof. intros H. unfold Nz. now rewrite (Fi_nan H). Qed.
Lemma nz_ofZ z : z <> 0 -> nz (ofZ z).
Proof. intros H. exists (IZR z). split; [reflexivity|]. now apply not_0_IZR. Qed.
Lemma nz_lit n d : n <> 0 -> nz (lit n d).
Proof.
  intros H. eexists. split; [reflexivity|]. unfold Rdiv. apply Rmult_integral_contrapositive_currified; [now apply not_0_IZR|].
  apply Rinv_neq_0_compat. apply not_0_IZR. lia.
Qed.
Lemma nz_mul x y : nz x -> nz y -> nz (x *~ y).
Proof. intros (a & -> & Ha) (b & -> & Hb). eexists. split; [reflexivity|]. now apply Rmult_integral_contrapositive_currified. Qed.
Lemma nz_neq x : Fi x -> (x ==~ fzero) = false -> nz x.
Proof. intros [a ->] H. exists a. split; [reflexivity|]. intros ->. cbn in H. change (Reqb 0 0 = false) in H. rewrite Reqb_refl in H. discriminate. Qed.
Lemma Fi_clean a b : Fi (div_clean a b).
Proof. unfold div_clean. destruct (a /~ b) eqn:E; cbn; try apply Fi_zero. now eexists. Qed.
Lemma Fi_sma_clean x : Fi x -> Fi (sma_clean x).
Proof. intros [a ->]. now eexists. Qed.

Ltac nzt := first [ assumption | apply nz_ofZ; lia | apply nz_lit; discriminate | apply Po_nz; assumption
  | apply nz_mul; [nzt|nzt] ].
Ltac fi :=
  lazymatch goal with
  | |- Fi (if _ then _ else _) => apply Fi_if; intros ?; fi
  | |- Fi (Nz _ _) => apply Fi_Nz; fi
  | |- Fi (_ +~ _) => apply Fi_add; [fi|fi]
  | |- Fi (_ -~ _) => apply Fi_sub; [fi|fi]
  | |- Fi (_ *~ _) => apply Fi_mul; [fi|fi]
  | |- Fi (_ /~ _) => apply Fi_div; [fi|nzt]
  | |- Fi (fneg _) => apply Fi_neg; fi
  | |- Fi (fabs _) => apply Fi_abs; fi
  | |- Fi (fmax _ _) => apply Fi_max; [fi|fi]
  | |- Fi (fmin _ _) => apply Fi_min; [fi|fi]
  | |- Fi (div_clean _ _) => apply Fi_clean
  | |- _ => first [ assumption | apply Fi_zero | apply Fi_ofZ | apply Fi_lit | apply Po_Fi; assumption ]
  end.
Ltac open_pk := repeat match goal with H : PK _ _ ?x |- _ => destruct x; apply pk_elim in H; destruct H end; cbv beta iota.
Ltac kv :=
  lazymatch goal with
  | |- PK _ _ (_, _) => apply pk_intro; [kv|kv]
  | |- Fi _ => fi
  | |- Forall _ [] => constructor
  | |- Fis [] => constructor
  | |- Fis (_ ++ [_]) => apply fa_snoc; [assumption|kv]
  | |- Forall _ (_ ++ [_]) => apply fa_snoc; [assumption|kv]
  | |- True => exact I
  | |- _ => first [assumption | eassumption]
  end.
Create HintDb fin discriminated.
Lemma kp_getF l i : Fis l -> Kp Fi (get l i). Proof. apply kp_get. Qed.
Lemma kp_setF l i v : Fis l -> Fi v -> Kp Fis (set l i v). Proof. apply kp_set. Qed.
Lemma kp_makeF n : Kp Fis (make fzero n). Proof. apply kp_make, Fi_zero. Qed.
Lemma kp_zmod a b : Kp (fun _ => True) (zmod a b). Proof. apply kp_any. Qed.
Ltac kg1 :=
  lazymatch goal with
  | |- Kp _ (get _ _) => first [eapply kp_getF; eassumption | eapply kp_get; eassumption]
  | |- Kp _ (set _ _ _) => first [eapply kp_setF; [eassumption|solve [kv]] | eapply kp_set; [eassumption|solve [kv]]]
  | |- Kp _ (make fzero _) => first [eapply kp_makeF | eapply kp_make; solve [kv]]
  | |- Kp _ (make _ _) => eapply kp_make; solve [kv]
  | |- Kp _ (slice _ _ _) => eapply kp_slice; eassumption
  | |- Kp _ (zmod _ _) => apply kp_zmod
  | |- Kp _ Panic => exact I
  | |- _ => solve [eauto with fin]
  end.
Ltac zif b :=
  lazymatch b with
  | (?x || ?y)%bool => zif x; cbn [orb]
  | (?x <? ?y)%Z => destruct (Z.ltb_spec x y)
  | (?x <=? ?y)%Z => destruct (Z.leb_spec x y)
  | (?x >? ?y)%Z => rewrite (Z.gtb_ltb x y); destruct (Z.ltb_spec y x)
  | (?x >=? ?y)%Z => rewrite (Z.geb_leb x y); destruct (Z.leb_spec y x)
  | (?x =? ?y)%Z => destruct (Z.eqb_spec x y)
  | _ => let E := fresh "E" in destruct b eqn:E
  end.
Ltac kg :=
  lazymatch goal with
  | |- Kp _ (bind _ _) => eapply kp_bind; [solve [kg1] | intros ? ?; open_pk; try kg]
  | |- Kp _ (Ok _) => first [ solve [cbn [Kp]; kv] | idtac ]
  | |- Kp _ (if ?b then _ else _) => zif b; try kg
  | |- _ => solve [kg1]
  end.
Tactic Notation "kmid" uconstr(Y) := eapply kp_bind with (P := Y); [try kg | intros ? ?; open_pk; try kg].
Tactic Notation "kloop" uconstr(Y) := eapply (@kp_for _ Y); [try solve [kv] | intros ? ? ? ?; open_pk; try kg].
Tactic Notation "krange" uconstr(Y) := eapply (@kp_range _ _ _ Y); [eassumption | try solve [kv] | intros ? ? ? ? ? ?; open_pk; try kg].
Tactic Notation "kbloop" uconstr(Y) := eapply kp_bind with (P := Y); [kloop Y | intros ? ?; open_pk; try kg].
Tactic Notation "kbrange" uconstr(Y) := eapply kp_bind with (P := Y); [krange Y | intros ? ?; open_pk; try kg].

(** ** utils/ta *)
Lemma kp_map1 (P Q : X -> Prop) f xs : (forall x, P x -> Q (f x)) -> Q fzero -> Forall P xs -> Kp (Forall Q) (map1 f xs).
Proof.
  intros Hf H0 H. unfold map1. eapply kp_bind; [apply kp_make, H0|]. intros r Hr. kloop (Forall Q). apply kp_set; auto.
Qed.
Lemma kp_map2 (P Q : X -> Prop) f xs ys : (forall x y, P x -> P y -> Q (f x y)) -> Q fzero -> Forall P xs -> Forall P ys -> Kp (Forall Q) (map2 f xs ys).
Proof.
  intros Hf H0 H H1. unfold map2. eapply kp_bind; [apply kp_make, H0|]. intros r Hr. kloop (Forall Q). apply kp_set; auto.
Qed.
Lemma fa_any A (l : list A) : Forall (fun _ => True) l.
Proof. induction l; constructor; auto. Qed.
Lemma k_Divide xs ys : Kp Fis (Divide (N := XR) xs ys).
Proof. eapply (@kp_map2 (fun _ => True)); [intros; apply Fi_clean|apply Fi_zero|apply fa_any|apply fa_any]. Qed.
Lemma k_MultiplyBy xs c : Fis xs -> Fi c -> Kp Fis (MultiplyBy xs c).
Proof. intros H Hc. eapply kp_map1; [|apply Fi_zero|exact H]. intros. fi. Qed.
Lemma k_AddBy xs c : Fis xs -> Fi c -> Kp Fis (AddBy xs c).
Proof. intros H Hc. eapply kp_map1; [|apply Fi_zero|exact H]. intros. fi. Qed.
Lemma k_DivideBy xs c : Fis xs -> nz c -> Kp Fis (DivideBy xs c).
Proof. intros H Hc. unfold DivideBy. apply k_MultiplyBy; [exact H|fi]. Qed.
Lemma k_Multiply xs ys : Fis xs -> Fis ys -> Kp Fis (Multiply xs ys).
Proof. intros H H1. eapply kp_map2; [|apply Fi_zero|exact H|exact H1]. intros. fi. Qed.
Lemma k_Add xs ys : Fis xs -> Fis ys -> Kp Fis (Add xs ys).
Proof. intros H H1. eapply kp_map2; [|apply Fi_zero|exact H|exact H1]. intros. fi. Qed.
Lemma k_Subtract xs ys : Fis xs -> Fis ys -> Kp Fis (Subtract xs ys).
Proof. intros H H1. unfold Subtract. eapply kp_bind; [apply k_MultiplyBy; [exact H1|fi]|]. intros. now apply k_Add. Qed.
Lemma k_ShiftFill p c xs : Fis xs -> Fi c -> Kp Fis (ShiftRightAndFillBy p c xs).
Proof. intros H Hc. unfold ShiftRightAndFillBy. kg. kloop Fis. Qed.
Lemma k_ShiftRight p xs : Fis xs -> Kp Fis (ShiftRight p xs).
Proof. intros H. apply k_ShiftFill; [exact H|fi]. Qed.
Lemma k_Diff xs p : Fis xs -> Kp Fis (Diff xs p).
Proof. intros H. unfold Diff. eapply kp_bind; [apply k_ShiftRight, H|]. intros. now apply k_Subtract. Qed.
Lemma k_ExtractSign xs : Fis xs -> Kp Fis (ExtractSign xs).
Proof. intros H. eapply kp_map1; [|apply Fi_zero|exact H]. intros. fi. Qed.
Lemma k_KeepPositives xs : Fis xs -> Kp Fis (KeepPositives xs).
Proof. intros H. eapply kp_map1; [|apply Fi_zero|exact H]. intros. fi. Qed.
Lemma k_KeepNegatives xs : Fis xs -> Kp Fis (KeepNegatives xs).
Proof. intros H. eapply kp_map1; [|apply Fi_zero|exact H]. intros. fi. Qed.
Lemma k_Sum p xs : Fis xs -> Kp Fis (Sum p xs).
Proof. intros H. unfold Sum. kg. kbloop (PK Fi Fis). kmid Fi. Qed.
Lemma k_Nzs xs c : Fis xs -> Kp Fis (Nzs xs c).
Proof. intros H. unfold Nzs. kloop Fis. Qed.
Lemma k_tr1 h l c : Fi h -> Fi l -> Fi c -> Fi (tr1 h l c).
Proof. intros. unfold tr1. cbv zeta. fi. Qed.
Lemma k_TRange hs ls cs : Fis hs -> Fis ls -> Fis cs -> Kp Fis (@TRange XR hs ls cs).
Proof. intros. unfold TRange. kg. kloop Fis. apply kp_setF; [assumption|now apply k_tr1]. Qed.
Lemma k_sum_range xs lo hi : Fis xs -> Kp Fi (sum_range xs lo hi).
Proof. intros. unfold sum_range. kloop Fi. Qed.
#[local] Hint Resolve k_sum_range k_TRange : fin.
Lemma k_MA xs p : Fis xs -> Kp Fis (MA xs p).
Proof.
  intros H. unfold MA. cbv zeta. kg. kloop Fis.
Qed.
Lemma k_Sma p xs : 1 <= p -> Fis xs -> Kp Fis (Sma p xs).
Proof.
  intros Hp H. unfold Sma. kg. kbrange (PK Fi Fis). eapply kp_bind with (P := PK Fi (fun c => c <> 0)).
  - kg; cbn [Kp]; (split; cbn [fst snd]; [fi|lia]).
  - intros ? ?; open_pk. eapply kp_bind; [apply kp_setF; [eassumption|apply Fi_sma_clean; fi]|]. intros. kg.
Qed.
Lemma k_Rma p xs : 1 <= p -> Fis xs -> Kp Fis (Rma p xs).
Proof.
  intros Hp H. unfold Rma. kg. kbrange (PK Fi Fis). eapply kp_bind with (P := PK Fi (fun c => c <> 0)).
  - kg; cbn [Kp]; (split; cbn [fst snd]; [fi|lia]).
  - intros ? ?; open_pk. kg.
Qed.
Lemma k_Ema p xs : 1 <= p -> Fis xs -> Kp Fis (Ema p xs).
Proof. intros Hp H. unfold Ema. kg. krange Fis. Qed.
Lemma k_Wma p xs : 1 <= p -> Fis xs -> Kp Fis (Wma p xs).
Proof.
  intros Hp H. unfold Wma. kg.
  assert (D : Z.shiftr (p * (p + 1)) 1 <> 0).
  { rewrite Z.shiftr_div_pow2 by lia. change (2 ^ 1) with 2. assert (2 <= p * (p + 1)) by nia. pose proof (Z.div_le_lower_bound (p * (p + 1)) 2 1). lia. }
  kbloop (PK Fi Fi). kbloop (PK (PK (PK Fi Fi) Fi) Fis).
Qed.
Lemma k_MeanDeviation xs p ma : 1 <= p -> Fis xs -> Fis ma -> Kp Fis (MeanDeviation xs p ma).
Proof. intros Hp H H1. unfold MeanDeviation. kg. kloop Fis. kbloop Fi. Qed.
Lemma k_Dev xs p : Fis xs -> Kp Fis (Dev xs p).
Proof.
  intros H. unfold Dev. cbv zeta. kg. kloop Fis. kbloop Fi.
Qed.
#[local] Hint Resolve k_MA k_Dev : fin.
Lemma k_AiCoinCCI xs p f : Fis xs -> Kp Fis (AiCoinCCI xs p f).
Proof.
  intros H. unfold AiCoinCCI. kg. kloop Fis.
  eapply kp_setF; [eassumption|]. match goal with E : (?d ==~ fzero) = false, H : Fi ?d |- _ => pose proof (nz_neq H E) end. fi.
Qed.
#[local] Hint Resolve k_Rma k_Sma : fin.
Lemma k_Atr hs ls cs p : Fis hs -> Fis ls -> Fis cs -> Kp Fis (@Atr XR hs ls cs p).
Proof.
  intros. unfold Atr. kg. kbloop (PK Fi Fis).
Qed.
Lemma k_Natr hs ls cs p : Fis hs -> Fis ls -> Fis cs -> Kp Fis (@Natr XR hs ls cs p).
Proof.
  intros. unfold Natr. kg.
  eapply kp_bind with (P := Fis).
  - match goal with |- context[negb ?b] => destruct b eqn:E end; cbn [negb]; [kg|].
    match goal with E : (?d ==~ fzero) = false, H : Fi ?d |- _ => pose proof (nz_neq H E) end. kg.
  - intros. kbloop (PK Fi Fis). eapply kp_bind with (P := Fis); [|intros; kg].
    match goal with |- context[negb ?b] => destruct b eqn:E end; cbn [negb]; [kg|].
    match goal with E : (?d ==~ fzero) = false, H : Fi ?d |- _ => pose proof (nz_neq H E) end. kg.
Qed.
Lemma lr_divisor_val p : lr_divisor (N := XR) p = Fin (- (IZR p * IZR p * (IZR p * IZR p - 1)) / 12).
Proof.
  unfold lr_divisor, lr_sumX, lr_sumXSqr. cbn [fadd fsub fmul fdiv ofZ lit XR xsub xadd xneg xmul].
  rewrite xdiv_fin by (intros E; lra). cbn [xsub xadd xneg xmul]. f_equal. field.
Qed.
Lemma nz_lr p : 2 <= p -> nz (lr_divisor (N := XR) p).
Proof.
  intros Hp. rewrite lr_divisor_val. eexists. split; [reflexivity|]. assert (2 <= IZR p)%R by (apply IZR_le; lia).
  assert (0 < IZR p * IZR p * (IZR p * IZR p - 1))%R by (apply Rmult_lt_0_compat; nra). lra.
Qed.
Lemma k_lr_init xs p : Fis xs -> Kp (PK Fi Fi) (lr_init xs p).
Proof. intros H. unfold lr_init. kg. kloop (PK Fi Fi). Qed.
Lemma k_LinearReg xs p : 2 <= p -> Fis xs -> Kp Fis (LinearReg xs p).
Proof.
  intros Hp H. unfold LinearReg, lr_loop. kg. eapply kp_bind; [apply k_lr_init, H|]. intros ? ?; open_pk.
  pose proof (nz_lr Hp) as Z. assert (S1 : Fi (lr_sumX (N := XR) p)) by (unfold lr_sumX; fi).
  kbloop (PK (PK Fi Fi) Fis). eapply kp_bind with (P := PK Fi Fi); [kg|]. intros ? ?; open_pk.
  eapply kp_bind; [apply kp_setF; [eassumption|fi]|]. intros. kg.
Qed.

(** ** The search tree *)
Inductive TK (P : X -> Prop) : tree X -> Prop :=
| TK_leaf : TK P Leaf
| TK_node l x r : TK P l -> P x -> TK P r -> TK P (Node l x r).
Lemma tInsert_k (P : X -> Prop) t v : TK P t -> P v -> Kp (TK P) (tInsert (cmpF (N := XR)) t v).
Proof.
  intros Ht Hv. induction Ht as [|l x r Hl IHl Hx Hr IHr]; cbn [tInsert]; [cbn; repeat constructor; exact Hv|].
  eapply kp_bind; [apply kp_any|]. intros c _. destruct (c <=? 0).
  - eapply kp_bind; [exact IHl|]. intros. cbn. now constructor.
  - eapply kp_bind; [exact IHr|]. intros. cbn. now constructor.
Qed.
Lemma tInserts_k (P : X -> Prop) vs : Forall P vs -> forall t, TK P t -> Kp (TK P) (tInserts (cmpF (N := XR)) t vs).
Proof. induction 1; intros t Ht; cbn [tInserts]; [exact Ht|]. eapply kp_bind; [eapply tInsert_k; eassumption|]. intros. now apply IHForall. Qed.
Lemma takeMin_k (P : X -> Prop) l : TK P l -> forall x r, P x -> TK P r -> P (fst (takeMin l x r)) /\ TK P (snd (takeMin l x r)).
Proof.
  induction 1 as [|ll lx lr Hl IHl Hx Hr IHr]; intros x r H1 H2; cbn [takeMin]; [now split|].
  specialize (IHl lx lr Hx Hr). destruct (takeMin ll lx lr). cbn in *. destruct IHl. split; [assumption|now constructor].
Qed.
Lemma removeNode_k (P : X -> Prop) l r : TK P l -> TK P r -> TK P (removeNode l r).
Proof.
  intros Hl Hr. destruct Hl as [|ll lx lr Hll Hlx Hlr]; cbn [removeNode]; [exact Hr|].
  destruct Hr as [|rl rx rr Hrl Hrx Hrr]; [now constructor|].
  destruct (takeMin_k Hrl Hrx Hrr) as [A B]. destruct (takeMin rl rx rr). cbn in A, B. repeat (constructor; auto).
Qed.
Lemma tRemove_k (P : X -> Prop) t v : TK P t -> Kp (PK (TK P) (fun _ => True)) (tRemove (cmpF (N := XR)) t v).
Proof.
  intros Ht. induction Ht as [|l x r Hl IHl Hx Hr IHr]; cbn [tRemove]; [repeat constructor|].
  eapply kp_bind; [apply kp_any|]. intros c _. destruct (c =? 0); [|destruct (c =? -1)].
  - split; [now apply removeNode_k|exact I].
  - eapply kp_bind; [exact IHl|]. intros ? ?; open_pk. split; [now constructor|exact I].
  - eapply kp_bind; [exact IHr|]. intros ? ?; open_pk. split; [now constructor|exact I].
Qed.
Definition optK {A} (P : A -> Prop) (a : option A) : Prop := match a with Some x => P x | None => True end.
Lemma tMin_k P t : TK P t -> optK P (tMin t).
Proof. induction 1 as [|l x r Hl IHl Hx Hr IHr]; [exact I|]. cbn [tMin]. destruct Hl; [exact Hx|exact IHl]. Qed.
Lemma tMax_k P t : TK P t -> optK P (tMax t).
Proof. induction 1 as [|l x r Hl IHl Hx Hr IHr]; [exact I|]. cbn [tMax]. destruct Hr; [exact Hx|exact IHr]. Qed.
Lemma moving_k (P : X -> Prop) pk p xs : (forall t, TK P t -> optK P (pk t)) -> P fzero -> Forall P xs -> Kp (Forall P) (moving pk p xs).
Proof.
  intros Hp H0 H. unfold moving. do 2 (eapply kp_bind; [apply kp_make, H0|intros]). eapply kp_bind with (P := PK (PK (TK P) (Forall P)) (Forall P)).
  - kloop (PK (PK (TK P) (Forall P)) (Forall P)).
    + split; [split; [apply TK_leaf|]|]; cbn [fst snd]; assumption.
    + eapply kp_bind; [apply tInsert_k; eassumption|]. intros t1 Ht1. eapply kp_bind with (P := TK P).
      * kg. eapply kp_bind; [apply tRemove_k; eassumption|]. intros ? ?; open_pk. assumption.
      * intros u Hu. kg. eapply kp_bind with (P := P); [specialize (Hp u Hu); destruct (pk u); [exact Hp|exact I]|]. intros. kg.
  - intros ? ?; open_pk. assumption.
Qed.
Lemma k_Max p xs : Fis xs -> Kp Fis (Max p xs).
Proof. apply moving_k; [apply tMax_k|fi]. Qed.
Lemma k_Min p xs : Fis xs -> Kp Fis (Min p xs).
Proof. apply moving_k; [apply tMin_k|fi]. Qed.
Lemma pivots_k pk xs a b : (forall t, TK Fi t -> optK Fi (pk t)) -> Fis xs -> Kp Fis (pivots pk xs a b).
Proof.
  intros Hp H. unfold pivots. kg. kloop Fis. eapply kp_bind; [eapply tInserts_k; [eassumption|constructor]|]. intros t Ht.
  eapply kp_bind with (P := Fi); [specialize (Hp t Ht); destruct (pk t); [exact Hp|exact I]|]. intros. kg.
Qed.
Lemma k_PivotHigh xs a b : Fis xs -> Kp Fis (PivotHigh xs a b).
Proof. apply pivots_k, tMax_k. Qed.
Lemma k_PivotLow xs a b : Fis xs -> Kp Fis (PivotLow xs a b).
Proof. apply pivots_k, tMin_k. Qed.
Lemma k_Dema p xs : 1 <= p -> Fis xs -> Kp Fis (Dema p xs).
Proof.
  intros Hp H. unfold Dema. eapply kp_bind; [apply k_Ema; eassumption|intros]. eapply kp_bind; [apply k_Ema; eassumption|intros].
  eapply kp_bind; [eapply k_MultiplyBy; [eassumption|fi]|intros]. now apply k_Subtract.
Qed.
#[local] Hint Resolve k_Max k_Min k_Subtract k_Divide k_Ema : fin.
Lemma k_Stochastic cs hs ls p : Fis cs -> Fis hs -> Fis ls -> Kp (PK Fis Fis) (Stochastic cs hs ls p).
Proof.
  intros. unfold Stochastic. kg. eapply kp_bind; [eapply k_MultiplyBy; [eassumption|fi]|intros].
  eapply kp_bind; [apply k_Sma; [lia|eassumption]|intros]. kg.
Qed.
#[export] Hint Resolve k_sum_range k_TRange k_MA k_Dev k_AiCoinCCI k_Atr k_Natr k_Add k_Subtract k_Multiply k_Divide k_ShiftRight k_Diff k_Sum
  k_ExtractSign k_KeepPositives k_KeepNegatives k_Max k_Min k_PivotHigh k_PivotLow k_Stochastic k_Nzs : fin.
#[export] Hint Extern 2 (Kp _ (Ema _ _)) => eapply k_Ema; [lia|eassumption] : fin.
#[export] Hint Extern 2 (Kp _ (Sma _ _)) => eapply k_Sma; [lia|eassumption] : fin.
#[export] Hint Extern 2 (Kp _ (Rma _ _)) => eapply k_Rma; [lia|eassumption] : fin.
#[export] Hint Extern 2 (Kp _ (Wma _ _)) => eapply k_Wma; [lia|eassumption] : fin.
#[export] Hint Extern 2 (Kp _ (Dema _ _)) => eapply k_Dema; [lia|eassumption] : fin.
#[export] Hint Extern 2 (Kp _ (LinearReg _ _)) => eapply k_LinearReg; [lia|eassumption] : fin.
#[export] Hint Extern 2 (Kp _ (MultiplyBy _ _)) => eapply k_MultiplyBy; [eassumption|fi] : fin.
#[export] Hint Extern 2 (Kp _ (AddBy _ _)) => eapply k_AddBy; [eassumption|fi] : fin.
#[export] Hint Extern 2 (Kp _ (DivideBy _ _)) => eapply k_DivideBy; [eassumption|nzt] : fin.
#[export] Hint Extern 2 (Kp _ (ShiftRightAndFillBy _ _ _)) => eapply k_ShiftFill; [eassumption|fi] : fin.
