(** * SpecDur: how a reader reads the text of a duration.

    A duration is written as a sign and a row of decimal numbers with units: "-1h30m0.5s".
    Its meaning is the sum of the numbers times their units; this is also what Go's
    time.ParseDuration computes. *)
From Coq Require Import ZArith List Ascii String.
Import ListNotations.
Open Scope Z_scope.

Definition is_digit (c : ascii) : bool := (Nat.leb 48 (nat_of_ascii c) && Nat.leb (nat_of_ascii c) 57)%bool.
Definition digit_value (c : ascii) : Z := Z.of_nat (nat_of_ascii c) - 48.
(** the digits a text begins with, and the rest *)
Fixpoint take_digits (s : string) : list Z * string :=
  match s with
  | String c t => if is_digit c then let '(ds, r) := take_digits t in (digit_value c :: ds, r) else ([], s)
  | EmptyString => ([], s)
  end.
(** the number written with these digits *)
Definition number (ds : list Z) : Z := fold_left (fun a d => 10 * a + d) ds 0.
(** the characters up to the next digit or point, and the rest *)
Fixpoint take_unit (s : string) : string * string :=
  match s with
  | String c t => if (is_digit c || Ascii.eqb c ".")%bool then (EmptyString, s) else let '(u, r) := take_unit t in (String c u, r)
  | EmptyString => (EmptyString, s)
  end.
(** nanoseconds in a unit *)
Definition unit_ns (u : string) : option Z :=
  if String.eqb u "ns" then Some 1
  else if String.eqb u "µs" then Some 1000
  else if String.eqb u "ms" then Some 1000000
  else if String.eqb u "s" then Some 1000000000
  else if String.eqb u "m" then Some (60 * 1000000000)
  else if String.eqb u "h" then Some (3600 * 1000000000)
  else None.
(** the number after an optional point *)
Definition take_fraction (s : string) : list Z * string :=
  match s with String c t => if Ascii.eqb c "." then take_digits t else ([], s) | EmptyString => ([], s) end.
(** one number with its unit, in nanoseconds; a fraction must come out in whole nanoseconds *)
Definition read_group (s : string) : option (Z * string) :=
  match take_digits s with
  | ([], _) => None
  | (ds, s1) =>
      let '(fs, s2) := take_fraction s1 in
      let '(u, s3) := take_unit s2 in
      match unit_ns u with
      | Some n => let k := 10 ^ Z.of_nat (List.length fs) in
                  if (number fs * n) mod k =? 0 then Some (number ds * n + number fs * n / k, s3) else None
      | None => None
      end
  end.
(** the row of numbers; [fuel] is the number of characters *)
Fixpoint read_groups (fuel : nat) (s : string) : option Z :=
  match s, fuel with
  | EmptyString, _ => Some 0
  | _, O => None
  | _, S f => match read_group s with
              | Some (v, r) => match read_groups f r with Some w => Some (v + w) | None => None end
              | None => None
              end
  end.
Definition read_duration (s : string) : option Z :=
  match s with
  | String c t => if Ascii.eqb c "-" then match t with EmptyString => None | _ => option_map Z.opp (read_groups (String.length t) t) end
                  else read_groups (String.length s) s
  | EmptyString => None
  end.

(** [s] is the number [n] written in decimal, without superfluous zeros *)
Definition decimal (s : string) (n : Z) : Prop :=
  exists ds, take_digits s = (ds, EmptyString) /\ number ds = n /\ (ds = [0] \/ (ds <> [] /\ hd 0 ds <> 0)).
(** a number of nanoseconds that fits time.Duration *)
Definition int64 (d : Z) : Prop := - 2 ^ 63 <= d < 2 ^ 63.
Fixpoint has_char (c : ascii) (s : string) : bool := match s with EmptyString => false | String x t => (Ascii.eqb x c || has_char c t)%bool end.
