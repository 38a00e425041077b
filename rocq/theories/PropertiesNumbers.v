(** C62: numbers are read as they are spelled. *)
From Coq Require Import List Arith Bool QArith ZArith String Ascii Lia Lqa.
From Verif Require Import InfraModel InfraSpec InfraNumberProofs NumberSpec NumberProofs.
Import ListNotations.
Open Scope Q_scope.

(** A line of a grid: sign, digits, fraction, exponent; what follows is ignored. *)
Theorem C62_line : forall n rest, proper n -> stops n rest -> n_sign n <> Plus ->
  exists v, from_chars (spell n ++ rest) = Some v /\ v == worth n.
Proof. exact from_chars_spelled. Qed.
Print Assumptions C62_line.

(** A text that does not begin with a number, maybe after a minus, is an error;
    infinities and NaN are left out. *)
Theorem C62_error : forall s, (forall g t, s = (sign_text g ++ t)%string -> ~ first_in ["i"; "I"; "n"; "N"]%char t) -> from_chars s = None <-> ~ exists g t, g <> Plus /\ s = (sign_text g ++ t)%string /\ number_first t.
Proof. intros s _. apply from_chars_none. Qed.
Print Assumptions C62_error.

(** In particular with a plus or a blank first (false: that all usual numbers are read). *)
Theorem C62_plus_refuted : forall n rest, proper n -> n_sign n = Plus -> from_chars (spell n ++ rest) = None.
Proof.
  intros n rest P S. apply from_chars_none. intros (g & t & G & E & N). unfold spell in E. rewrite S in E. cbn in E. destruct g; [|discriminate|now destruct G].
  cbn in E. subst t. destruct N as [(d & r & L & E)|(t & _ & E)]; injection E as E; [|discriminate]. apply (glyph_sign d L). rewrite <- E. cbn. tauto.
Qed.
Print Assumptions C62_plus_refuted.

(** The lines of an axis, with commas between them. *)
Theorem C62_lines : forall unit l xs, Forall proper l -> Forall (fun n => n_sign n <> Plus) l ->
  reads unit (split (listed (map spell l))) xs -> Forall2 (fun n x => x == inject_Z (Z.of_nat unit) * worth n) l xs.
Proof.
  intros unit l xs P S R. unfold reads in R. rewrite split_listed in R by assumption. remember (map spell l) as ts eqn:E. revert l P S E.
  induction R as [|t x ts xs (v & V & ->) R IH]; intros [|n l] P S E; try discriminate; constructor.
  - injection E as -> ->. inversion P; inversion S; subst. destruct (C62_line n "") as (w & W & X); [assumption|apply stops_nothing|assumption|].
    rewrite str_app_nil, V in W. injection W as ->. now rewrite X.
  - injection E as -> ->. inversion P; inversion S; subst. now apply IH.
Qed.
Print Assumptions C62_lines.
Theorem C62_lines_read : forall unit l, Forall proper l -> Forall (fun n => n_sign n <> Plus) l -> exists xs, reads unit (split (listed (map spell l))) xs.
Proof.
  intros unit l P S. rewrite split_listed by assumption. unfold reads. induction P as [|n l Pn P IH]; [exists []; constructor|].
  inversion S; subst. destruct (IH H2) as (xs & F). destruct (C62_line n "" Pn (stops_nothing n) H1) as (v & V & _). rewrite str_app_nil in V.
  exists (inject_Z (Z.of_nat unit) * v :: xs). cbn [map]. constructor; [now exists v|assumption].
Qed.
Print Assumptions C62_lines_read.

(** A coordinate: blanks and a plus are skipped. *)
Theorem C62_coordinate : forall x n bl m rest otherwise, attribute x n = Some (string_of_list_ascii bl ++ spell m ++ rest)%string -> blanks bl -> proper m -> stops m rest ->
  ~ first_in ["x"; "X"]%char rest -> as_double x otherwise n == worth m.
Proof. intros x n bl m rest o A B P S _. unfold as_double. rewrite A. now apply to_double_spelled. Qed.
Print Assumptions C62_coordinate.
Theorem C62_missing : forall x n otherwise, attribute x n = None -> as_double x otherwise n = otherwise /\ forall m k, as_uint m x k n = k.
Proof. intros x n o A. unfold as_double, as_uint. now rewrite A. Qed.
Print Assumptions C62_missing.

(** A whole number: no more than the largest; 0 if negative. *)
Theorem C62_uint : forall uint_max x n bl g l rest otherwise,
  attribute x n = Some (string_of_list_ascii bl ++ sign_text g ++ digits_text l ++ rest)%string -> blanks bl -> all_digits l -> l <> [] ->
  ~ digit_first rest -> ~ first_in ["x"; "X"]%char rest ->
  as_uint uint_max x otherwise n = match g with Minus => O | _ => Nat.min uint_max (Z.to_nat (whole_worth l)) end.
Proof. intros uint_max x n bl g l rest o A B D N R _. unfold as_uint. rewrite A. apply to_uint_spelled; try assumption. intros ->. now destruct N. Qed.
Print Assumptions C62_uint.

(** [-12.5e-3], then [mm]. *)
Definition a_numeral : numeral := mk_numeral Minus [1; 2]%nat (Some [5]%nat) (Some ("e"%char, Minus, [3]%nat)).
Example C62_case : proper a_numeral /\ stops a_numeral "mm" /\ spell a_numeral = "-12.5e-3"%string /\ worth a_numeral == - (125 # 10000)
  /\ proper (mk_numeral NoSign [] (Some [2; 5]%nat) None) /\ worth (mk_numeral NoSign [] (Some [2; 5]%nat) None) == 1 # 4
  /\ stops (mk_numeral NoSign [7]%nat None None) "e+"
  /\ (forall g t, "x1"%string = (sign_text g ++ t)%string -> ~ first_in ["i"; "I"; "n"; "N"]%char t) /\ blanks [" "; "010"]%char.
Proof.
  assert (A : forall s c r, s = String c r -> ~ In c ["0"; "1"; "2"; "3"; "4"; "5"; "6"; "7"; "8"; "9"]%char -> ~ digit_first s).
  { intros s c r -> N (d & t & L & E). injection E as -> _. apply N. apply below_ten in L. cbn [In] in L. repeat (destruct L as [<-|L]; [cbn; tauto|]). destruct L. }
  split. { repeat split; try discriminate; try (cbn; tauto); repeat apply Forall_cons; try apply Forall_nil; lia. }
  split. { split; [apply (A _ "m"%char "m"%string); [reflexivity|cbn; intuition discriminate]|split; discriminate]. }
  split; [reflexivity|]. split; [reflexivity|].
  split. { repeat split; try discriminate; repeat apply Forall_cons; try apply Forall_nil; lia. }
  split; [reflexivity|]. split.
  - split; [apply (A _ "e"%char "+"%string); [reflexivity|cbn; intuition discriminate]|]. split.
    + intros _ _ (c & r & [<-|[]] & E). discriminate.
    + intros _ (c & g & t & _ & (d & r & L & ->) & E). destruct g; cbn [sign_text String.append] in E; [|discriminate E|injection E as _ E; discriminate E].
      injection E as _ E _. apply (glyph_sign d L). rewrite <- E. cbn. tauto.
  - split. { intros g t E (c & r & I & ->). destruct g; cbn in E; try discriminate E. injection E as <- _. cbn in I. intuition discriminate. }
    repeat apply Forall_cons; try apply Forall_nil; cbn; tauto.
Qed.
