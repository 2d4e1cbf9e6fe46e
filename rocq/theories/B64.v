(** * B64: IEEE-754 binary64 as a [Num] (bit exact, computable, axiom free). *)
From Coq Require Import SpecFloat.
From Verif Require Import Base Num.

(** Functions of package math that IEEE-754 does not fix are left open: the
    binary64 instance takes them as an argument. *)
Record MathLib := { ml_atan : spec_float -> spec_float;
                    ml_pow : spec_float -> spec_float -> spec_float }.

Notation f64 := spec_float (only parsing).

Definition b_ofZ (z : Z) : spec_float := binary_normalize 53 1024 z 0 false.
Definition b_lit (n : Z) (d : positive) : spec_float :=
  SFdiv 53 1024 (b_ofZ n) (b_ofZ (Zpos d)).
Definition b_isNaN (x : spec_float) : bool :=
  match x with S754_nan => true | _ => false end.
Definition b_isPInf (x : spec_float) : bool :=
  match x with S754_infinity false => true | _ => false end.
Definition b_isNInf (x : spec_float) : bool :=
  match x with S754_infinity true => true | _ => false end.
Definition b_signbit (x : spec_float) : bool :=
  match x with
  | S754_zero s | S754_infinity s | S754_finite s _ _ => s
  | S754_nan => false
  end.
(** math.Round: nearest integer, halves away from zero. *)
Definition b_round (x : spec_float) : spec_float :=
  match x with
  | S754_finite s m e =>
      match e with
      | Zneg d =>
          let q := Z.shiftr (Zpos m + Z.shiftl 1 (Zpos d - 1)) (Zpos d) in
          match q with
          | Z0 => S754_zero s
          | _ => binary_normalize 53 1024 (if s then - q else q) 0 s
          end
      | _ => x
      end
  | _ => x
  end.
(** int(x): truncation toward zero. *)
Definition b_trunc (x : spec_float) : Z :=
  match x with
  | S754_finite s m e =>
      let q := Z.shiftl (Zpos m) e in if s then - q else q
  | _ => 0
  end.

Definition B64 (L : MathLib) : Num := {|
  F := spec_float;
  ofZ := b_ofZ;
  lit := b_lit;
  fadd := SFadd 53 1024;
  fsub := SFsub 53 1024;
  fmul := SFmul 53 1024;
  fdiv := SFdiv 53 1024;
  fneg := SFopp;
  fabs := SFabs;
  fsqrt := SFsqrt 53 1024;
  flt := SFltb;
  fle := SFleb;
  feq := SFeqb;
  isNaN := b_isNaN;
  isPInf := b_isPInf;
  isNInf := b_isNInf;
  signbit := b_signbit;
  fround := b_round;
  ftrunc := b_trunc;
  fatan := ml_atan L;
  fpow := ml_pow L;
  fpi := b_lit 7074237752028440 2251799813685248
|}.

(** A concrete library used only in computed examples: Pow(x,2) = x*x. *)
Definition ex_lib : MathLib :=
  {| ml_atan := fun x => x; ml_pow := fun x _ => SFmul 53 1024 x x |}.

(* ------------------------------------------------------------------ *)
(** ** The order of non-NaN binary64 values is a total preorder *)

(** Position of a non-NaN value in a lexicographic order. *)
Definition b_key (x : spec_float) : Z * Z * Z :=
  match x with
  | S754_infinity true => (-2, 0, 0)
  | S754_finite true m e => (-1, - e, - Zpos m)
  | S754_zero _ => (0, 0, 0)
  | S754_finite false m e => (1, e, Zpos m)
  | S754_infinity false => (2, 0, 0)
  | S754_nan => (3, 0, 0)
  end.

Definition lex_lt (a b : Z * Z * Z) : Prop :=
  let '(a1, a2, a3) := a in let '(b1, b2, b3) := b in
  a1 < b1 \/ (a1 = b1 /\ (a2 < b2 \/ (a2 = b2 /\ a3 < b3))).

Lemma SFcompare_key x y :
  b_isNaN x = false -> b_isNaN y = false ->
  (SFcompare x y = Some Lt /\ lex_lt (b_key x) (b_key y)) \/
  (SFcompare x y = Some Eq /\ b_key x = b_key y) \/
  (SFcompare x y = Some Gt /\ lex_lt (b_key y) (b_key x)).
Proof.
  intros Hx Hy.
  destruct x as [[]|[]| |[] m e]; try discriminate; destruct y as [[]|[]| |[] m' e']; try discriminate;
    cbn [SFcompare b_key lex_lt];
    try (left; split; [reflexivity|lia]);
    try (right; left; split; [reflexivity|reflexivity]);
    try (right; right; split; [reflexivity|lia]).
  - destruct (Z.compare_spec e e') as [->|H|H].
    + change (Pcompare m m' Eq) with (Pos.compare m m').
      destruct (Pos.compare_spec m m') as [->|H|H]; cbn [CompOpp].
      * right; left; split; reflexivity.
      * right; right; split; [reflexivity|lia].
      * left; split; [reflexivity|lia].
    + right; right; split; [reflexivity|lia].
    + left; split; [reflexivity|lia].
  - destruct (Z.compare_spec e e') as [->|H|H].
    + change (Pcompare m m' Eq) with (Pos.compare m m').
      destruct (Pos.compare_spec m m') as [->|H|H].
      * right; left; split; reflexivity.
      * left; split; [reflexivity|lia].
      * right; right; split; [reflexivity|lia].
    + left; split; [reflexivity|lia].
    + right; right; split; [reflexivity|lia].
Qed.

Lemma lex_irrefl k : ~ lex_lt k k.
Proof. destruct k as [[a b] c]; cbn; lia. Qed.
Lemma lex_trans a b c : lex_lt a b -> lex_lt b c -> lex_lt a c.
Proof. destruct a as [[? ?] ?], b as [[? ?] ?], c as [[? ?] ?]; cbn; lia. Qed.

Lemma SFltb_key x y : b_isNaN x = false -> b_isNaN y = false ->
  SFltb x y = true <-> lex_lt (b_key x) (b_key y).
Proof.
  intros Hx Hy; unfold SFltb.
  destruct (SFcompare_key x y Hx Hy) as [[E H]|[[E H]|[E H]]]; rewrite E.
  - tauto.
  - rewrite H. split; [discriminate|]. intros H'; now apply lex_irrefl in H'.
  - split; [discriminate|]. intros H'. exfalso; eapply lex_irrefl, lex_trans; eauto.
Qed.

Lemma SFleb_key x y : b_isNaN x = false -> b_isNaN y = false ->
  SFleb x y = true <-> ~ lex_lt (b_key y) (b_key x).
Proof.
  intros Hx Hy; unfold SFleb.
  destruct (SFcompare_key x y Hx Hy) as [[E H]|[[E H]|[E H]]]; rewrite E.
  - split; [|tauto]. intros _ H'. eapply lex_irrefl, lex_trans; eauto.
  - rewrite H. split; [|tauto]. intros _ H'; now apply lex_irrefl in H'.
  - split; [discriminate|tauto].
Qed.

Lemma SFeqb_key x y : b_isNaN x = false -> b_isNaN y = false ->
  SFeqb x y = true <-> b_key x = b_key y.
Proof.
  intros Hx Hy; unfold SFeqb.
  destruct (SFcompare_key x y Hx Hy) as [[E H]|[[E H]|[E H]]]; rewrite E.
  - split; [discriminate|]. intros H'; rewrite H' in H; now apply lex_irrefl in H.
  - tauto.
  - split; [discriminate|]. intros H'; rewrite H' in H; now apply lex_irrefl in H.
Qed.
