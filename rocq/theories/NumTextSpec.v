(** * The CSS number grammar (CSS Syntax Level 3, "consume a number"): text to rational *)
From Coq Require Import Ascii String Bool ZArith QArith.
Open Scope string_scope.

Definition digit (c : ascii) : option Z :=
  let n := nat_of_ascii c in
  if (Nat.leb 48 n && Nat.leb n 57)%bool then Some (Z.of_nat (n - 48)) else None.

(** Digits from the front: accumulated value, how many were read, what is left *)
Fixpoint read_digits (acc : Z) (k : nat) (s : string) : Z * nat * string :=
  match s with
  | String c r => match digit c with Some d => read_digits (acc * 10 + d) (S k) r | None => (acc, k, s) end
  | EmptyString => (acc, k, s)
  end.

Definition read_sign (s : string) : bool * string :=
  match s with
  | String "-" r => (true, r)
  | String "+" r => (false, r)
  | _ => (false, s)
  end.

Definition pow10 (z : Z) : Q := Qpower 10 z.

(** [acc] digits with [k] of them after the point *)
Definition mantissa (acc : Z) (k : nat) : Q := inject_Z acc * pow10 (- Z.of_nat k).

(** An exponent needs at least one digit; otherwise the letter starts a unit *)
Definition read_exponent (s : string) : Z * string :=
  match s with
  | String c r =>
      if (Ascii.eqb c "e" || Ascii.eqb c "E")%bool then
        let (neg, r1) := read_sign r in
        let '(e, k, r2) := read_digits 0 0 r1 in
        match k with 0%nat => (0%Z, s) | S _ => ((if neg then - e else e)%Z, r2) end
      else (0%Z, s)
  | EmptyString => (0%Z, s)
  end.

(** The value of a number and the text after it *)
Definition read_unsigned (s : string) : option (Q * string) :=
  let '(i, ki, r1) := read_digits 0 0 s in
  let frac :=
    match r1 with
    | String "." r2 =>
        let '(f, kf, r3) := read_digits i 0 r2 in
        match kf with 0%nat => None | S _ => Some (f, kf, r3) end
    | _ => None
    end in
  let finish m k r := let (e, r') := read_exponent r in Some (mantissa m k * pow10 e, r') in
  match frac with
  | Some (f, kf, r3) => finish f kf r3
  | None => match ki with 0%nat => None | S _ => finish i 0%nat r1 end
  end.

Definition read_number (s : string) : option (Q * string) :=
  let (neg, r) := read_sign s in
  match read_unsigned r with
  | Some (q, r') => Some ((if neg then - q else q), r')
  | None => None
  end.

(** Two readings agree *)
Definition reads_as (s : string) (q : Q) (rest : string) : Prop :=
  exists q', read_number s = Some (q', rest) /\ q' == q.
