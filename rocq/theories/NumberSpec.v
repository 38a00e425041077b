(** How numbers are spelled in a file, and what they are worth. *)
From Coq Require Import List Arith QArith ZArith String Ascii.
Import ListNotations.
Open Scope Q_scope.

(** A digit is a number below ten; [glyph] is how it is written. *)
Definition glyph (d : nat) : ascii := nth d ["0"; "1"; "2"; "3"; "4"; "5"; "6"; "7"; "8"; "9"]%char " "%char.
Definition all_digits (l : list nat) : Prop := Forall (fun d => (d < 10)%nat) l.
Fixpoint digits_text (l : list nat) : string := match l with [] => "" | d :: r => String (glyph d) (digits_text r) end.

Inductive sign := NoSign | Minus | Plus.
Definition sign_text (s : sign) : string := match s with NoSign => "" | Minus => "-" | Plus => "+" end.

(** [-12.5e-3]: a sign, digits, a dot and digits, an exponent. *)
Record numeral := mk_numeral
  { n_sign : sign; n_whole : list nat; n_fraction : option (list nat); n_exponent : option (ascii * sign * list nat) }.
Definition fraction_text (f : option (list nat)) : string := match f with None => "" | Some l => "." ++ digits_text l end.
Definition exponent_text (e : option (ascii * sign * list nat)) : string :=
  match e with None => "" | Some (c, s, l) => String c (sign_text s ++ digits_text l) end.
Definition magnitude_spelled (n : numeral) : string := digits_text (n_whole n) ++ fraction_text (n_fraction n) ++ exponent_text (n_exponent n).
Definition spell (n : numeral) : string := sign_text (n_sign n) ++ magnitude_spelled n.

Definition fraction_digits (n : numeral) : list nat := match n_fraction n with Some l => l | None => [] end.
Definition proper (n : numeral) : Prop :=
  all_digits (n_whole n) /\ all_digits (fraction_digits n) /\ (n_whole n ++ fraction_digits n <> [])%list
  /\ match n_exponent n with None => True | Some (c, s, l) => In c ["e"; "E"]%char /\ all_digits l /\ l <> [] end.

(** What the digits are worth, each according to its place. *)
Fixpoint whole_worth (l : list nat) : Z :=
  match l with [] => 0 | d :: r => Z.of_nat d * 10 ^ Z.of_nat (List.length r) + whole_worth r end%Z.
Fixpoint fraction_worth (l : list nat) : Q :=
  match l with [] => 0 | d :: r => (inject_Z (Z.of_nat d) + fraction_worth r) / 10 end.
Definition with_sign (s : sign) (x : Q) : Q := match s with Minus => - x | _ => x end.
Definition exponent_worth (e : option (ascii * sign * list nat)) : Z :=
  match e with None => 0 | Some (_, Minus, l) => - whole_worth l | Some (_, _, l) => whole_worth l end%Z.
Definition worth (n : numeral) : Q :=
  with_sign (n_sign n) ((inject_Z (whole_worth (n_whole n)) + fraction_worth (fraction_digits n)) * Qpower 10 (exponent_worth (n_exponent n))).

(** Texts that begin with a digit, with an exponent, with one of these characters. *)
Definition digit_first (s : string) : Prop := exists d r, (d < 10)%nat /\ s = String (glyph d) r.
Definition exponent_first (s : string) : Prop :=
  exists c g t, In c ["e"; "E"]%char /\ digit_first t /\ s = String c (sign_text g ++ t).
Definition first_in (l : list ascii) (s : string) : Prop := exists c r, In c l /\ s = String c r.

(** The text that comes after the number does not make it longer. *)
Definition stops (n : numeral) (rest : string) : Prop :=
  ~ digit_first rest
  /\ (n_fraction n = None -> n_exponent n = None -> ~ first_in ["."]%char rest)
  /\ (n_exponent n = None -> ~ exponent_first rest).

(** Blanks. *)
Definition blanks (l : list ascii) : Prop := Forall (fun c => In c [" "; "009"; "010"; "013"]%char) l.

(** A digit, or a dot and a digit. *)
Definition number_first (s : string) : Prop := digit_first s \/ exists t, digit_first t /\ s = String "." t.

(** Texts with commas between them. *)
Fixpoint listed (l : list string) : string :=
  match l with [] => "" | [x] => x | x :: r => x ++ "," ++ listed r end.
