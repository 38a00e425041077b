(** Reading numbers that are spelled. *)
From Coq Require Import List Arith Bool QArith Qpower ZArith NArith String Ascii Lia Lqa.
From Verif Require Import InfraModel InfraNumberProofs NumberSpec.
Import ListNotations.
Open Scope Q_scope.

Lemma app_cons c s t : (String c s ++ t = String c (s ++ t))%string. Proof. reflexivity. Qed.
Lemma app_assoc_s (a b c : string) : ((a ++ b) ++ c = a ++ (b ++ c))%string.
Proof. induction a as [|x a IH]; cbn; [reflexivity|now rewrite IH]. Qed.

Lemma below_ten d : (d < 10)%nat -> In d [0; 1; 2; 3; 4; 5; 6; 7; 8; 9]%nat.
Proof. intros H. cbn. lia. Qed.
Lemma glyph_digit d : (d < 10)%nat -> digit_of (glyph d) = Some (Z.of_nat d).
Proof. intros H. apply below_ten in H. cbn [In] in H. repeat (destruct H as [<-|H]; [reflexivity|]). destruct H. Qed.
Lemma digit_glyph c z : digit_of c = Some z -> exists d, (d < 10)%nat /\ c = glyph d.
Proof.
  destruct c as [[] [] [] [] [] [] [] []]; try discriminate; intros _.
  all: first [exists 0%nat; split; [lia|reflexivity]|exists 1%nat; split; [lia|reflexivity]|exists 2%nat; split; [lia|reflexivity]
    |exists 3%nat; split; [lia|reflexivity]|exists 4%nat; split; [lia|reflexivity]|exists 5%nat; split; [lia|reflexivity]
    |exists 6%nat; split; [lia|reflexivity]|exists 7%nat; split; [lia|reflexivity]|exists 8%nat; split; [lia|reflexivity]|exists 9%nat; split; [lia|reflexivity]].
Qed.

Lemma no_digits s : ~ digit_first s -> take_digits s = ([], s).
Proof.
  intros N. destruct s as [|c r]; [reflexivity|]. cbn [take_digits]. destruct (digit_of c) as [z|] eqn:E; [|reflexivity].
  destruct (digit_glyph c z E) as (d & L & ->). destruct N. now exists d, r.
Qed.
Lemma take_spelled l s : all_digits l -> ~ digit_first s -> take_digits (digits_text l ++ s) = (map Z.of_nat l, s).
Proof.
  intros A N. induction A as [|d l D A IH]; [now apply no_digits|].
  cbn [digits_text]. rewrite app_cons. cbn [take_digits map]. now rewrite glyph_digit, IH.
Qed.

Lemma value_worth l : value_of (map Z.of_nat l) = whole_worth l.
Proof. induction l as [|d l IH]; [reflexivity|]. cbn [map whole_worth]. now rewrite value_cons, map_length, IH. Qed.
Lemma fraction_value l : fraction_worth l == inject_Z (whole_worth l) * Qpower 10 (- Z.of_nat (List.length l)).
Proof.
  induction l as [|d l IH]; [reflexivity|]. cbn [fraction_worth whole_worth List.length]. rewrite IH.
  rewrite inject_Z_plus, inject_Z_mult, Zpower_Qpower by lia.
  replace (- Z.of_nat (S (List.length l)))%Z with (- Z.of_nat (List.length l) + -1)%Z by lia. rewrite Qpower_plus by discriminate.
  assert (X : Qpower (inject_Z 10) (Z.of_nat (List.length l)) * Qpower 10 (- Z.of_nat (List.length l)) == 1).
  { change (inject_Z 10) with 10. rewrite <- Qpower_plus by discriminate. replace (Z.of_nat (List.length l) + - Z.of_nat (List.length l))%Z with 0%Z by lia. reflexivity. }
  set (a := Qpower (inject_Z 10) _) in *. set (b := Qpower 10 (- _)) in *. change (Qpower 10 (-1)) with (1 # 10).
  unfold Qdiv. change (/ 10) with (1 # 10). clearbody a b.
  transitivity (inject_Z (Z.of_nat d) * (a * b) * (1 # 10) + inject_Z (whole_worth l) * b * (1 # 10)); [rewrite X; ring|ring].
Qed.

Lemma sign_taken plus s r : (s = Plus -> plus = true) -> ~ first_in ["-"; "+"]%char r ->
  take_sign plus (sign_text s ++ r) = (match s with Minus => true | _ => false end, r).
Proof.
  intros P N. destruct s; cbn [sign_text String.append].
  - destruct r as [|c r]; [reflexivity|]. apply take_sign_other; intros ->; apply N; eexists _, r; (split; [|reflexivity]); cbn; tauto.
  - reflexivity.
  - cbn. now rewrite P.
Qed.
Lemma glyph_sign d : (d < 10)%nat -> ~ In (glyph d) ["-"; "+"; "."; "e"; "E"; " "; "009"; "010"; "013"]%char.
Proof. intros H. apply below_ten in H. cbn [In] in H. repeat (destruct H as [<-|H]; [cbn; intuition discriminate|]). destruct H. Qed.
Lemma digit_first_sign s : digit_first s -> ~ first_in ["-"; "+"]%char s.
Proof. intros (d & r & L & ->) (c & t & I & E). injection E as <- _. apply (glyph_sign d L). cbn in *. tauto. Qed.

(** ** The exponent *)

Lemma exponent_taken c s l rest : In c ["e"; "E"]%char -> all_digits l -> l <> [] -> ~ digit_first rest ->
  take_exponent (String c (sign_text s ++ digits_text l) ++ rest) = exponent_worth (Some (c, s, l)).
Proof.
  intros I A N R. rewrite app_cons, app_assoc_s. cbn [take_exponent].
  assert (C : (Ascii.eqb c "e" || Ascii.eqb c "E")%bool = true) by (destruct I as [<-|[<-|[]]]; reflexivity). rewrite C.
  rewrite sign_taken; [|reflexivity|].
  - rewrite take_spelled by assumption. cbn [fst]. rewrite value_worth. destruct s; reflexivity.
  - apply digit_first_sign. destruct l as [|d l]; [congruence|]. exists d, (digits_text l ++ rest)%string. split; [now inversion A|reflexivity].
Qed.
Lemma no_exponent s : ~ exponent_first s -> take_exponent s = 0%Z.
Proof.
  intros N. destruct s as [|c r]; [reflexivity|]. cbn [take_exponent]. destruct (Ascii.eqb c "e" || Ascii.eqb c "E")%bool eqn:C; [|reflexivity].
  assert (I : In c ["e"; "E"]%char).
  { apply orb_true_iff in C. destruct C as [C|C]; apply Ascii.eqb_eq in C; subst; cbn; tauto. }
  destruct (take_sign true r) as [neg r'] eqn:T.
  assert (X : exists g, r = (sign_text g ++ r')%string).
  { destruct r as [|a r]; [injection T as <- <-; now exists NoSign|]. destruct (ascii_dec a "-") as [->|A]; [injection T as <- <-; now exists Minus|].
    destruct (ascii_dec a "+") as [->|B]; [injection T as <- <-; now exists Plus|]. rewrite take_sign_other in T by assumption. injection T as <- <-. now exists NoSign. }
  destruct X as (g & ->). assert (F : ~ digit_first r') by (intros D; apply N; now exists c, g, r').
  rewrite no_digits by assumption. cbn. now destruct neg.
Qed.

(** ** The whole *)

Lemma exponent_not_digit e s : match e with None => True | Some (c, g, l) => In c ["e"; "E"]%char /\ all_digits l /\ l <> [] end ->
  ~ digit_first s -> ~ digit_first (exponent_text e ++ s).
Proof.
  intros P N. destruct e as [[[c g] l]|]; [|assumption]. destruct P as (I & _ & _). cbn [exponent_text]. rewrite app_cons. intros (d & r & L & E).
  injection E as E _. apply (glyph_sign d L). rewrite <- E. cbn in *. tauto.
Qed.

Lemma magnitude_spelled_read n rest : proper n -> stops n rest ->
  exists v, unsigned_decimal (magnitude_spelled n ++ rest) = Some v
    /\ v == (inject_Z (whole_worth (n_whole n)) + fraction_worth (fraction_digits n)) * Qpower 10 (exponent_worth (n_exponent n)).
Proof.
  intros (Aw & Af & Ne & Ex) (S1 & S2 & S3). unfold magnitude_spelled, unsigned_decimal. rewrite !app_assoc_s.
  assert (TE : take_exponent (exponent_text (n_exponent n) ++ rest) = exponent_worth (n_exponent n)).
  { destruct (n_exponent n) as [[[c g] l]|]; [destruct Ex as (I & A & N); now apply exponent_taken|]. cbn. apply no_exponent. now apply S3. }
  assert (TD : ~ digit_first (exponent_text (n_exponent n) ++ rest)) by now apply exponent_not_digit.
  assert (V : forall f, inject_Z (value_of (map Z.of_nat (n_whole n) ++ map Z.of_nat f)) * Qpower 10 (exponent_worth (n_exponent n) - Z.of_nat (List.length (map Z.of_nat f)))
    == (inject_Z (whole_worth (n_whole n)) + fraction_worth f) * Qpower 10 (exponent_worth (n_exponent n))).
  { intros f. rewrite value_app, !value_worth, fraction_value, !map_length. unfold Z.sub. rewrite Qpower_plus by discriminate.
    rewrite inject_Z_plus, inject_Z_mult, Zpower_Qpower by lia.
    assert (X : Qpower (inject_Z 10) (Z.of_nat (List.length f)) * Qpower 10 (- Z.of_nat (List.length f)) == 1).
    { change (inject_Z 10) with 10. rewrite <- Qpower_plus by discriminate. replace (Z.of_nat (List.length f) + - Z.of_nat (List.length f))%Z with 0%Z by lia. reflexivity. }
    set (a := Qpower (inject_Z 10) _) in *. set (b := Qpower 10 (- _)) in *. set (c := Qpower 10 _). clearbody a b c.
    transitivity ((inject_Z (whole_worth (n_whole n)) * (a * b) + inject_Z (whole_worth f) * b) * c); [ring|rewrite X; ring]. }
  unfold fraction_digits in *. destruct (n_fraction n) as [f|] eqn:F; cbn [fraction_text].
  - assert (D : ~ digit_first ("." ++ digits_text f ++ exponent_text (n_exponent n) ++ rest)%string).
    { intros (d & r & L & E). injection E as E _. apply (glyph_sign d L). rewrite <- E. cbn. tauto. }
    rewrite app_assoc_s. rewrite take_spelled by assumption. cbn [String.append]. rewrite take_spelled by assumption. rewrite TE.
    specialize (V f). destruct (map Z.of_nat (n_whole n) ++ map Z.of_nat f)%list eqn:L.
    + exfalso. apply Ne. rewrite <- map_app in L. now apply map_eq_nil in L.
    + eexists. split; [reflexivity|]. exact V.
  - cbn [String.append]. rewrite take_spelled by assumption.
    assert (D : match (exponent_text (n_exponent n) ++ rest)%string with String "." t => take_digits t | _ => ([], (exponent_text (n_exponent n) ++ rest)%string) end
      = ([], (exponent_text (n_exponent n) ++ rest)%string)).
    { assert (Z : ~ first_in ["."]%char (exponent_text (n_exponent n) ++ rest)%string).
      { destruct (n_exponent n) as [[[c g] l]|]; [|now apply S2]. destruct Ex as (I & _ & _). intros (c' & r & [<-|[]] & E). injection E as E _. subst c. cbn in I. intuition discriminate. }
      destruct (exponent_text (n_exponent n) ++ rest)%string as [|c r]; [reflexivity|].
      destruct (ascii_dec c ".") as [->|N]; [destruct Z; now exists "."%char, r; split; [left|]|].
      destruct c as [[] [] [] [] [] [] [] []]; try reflexivity. now destruct N. }
    rewrite D. rewrite TE. specialize (V []). cbn [map] in V. rewrite app_nil_r in V. rewrite app_nil_r in Ne. rewrite !app_nil_r.
    destruct (map Z.of_nat (n_whole n)) eqn:L; [exfalso; apply Ne; now apply map_eq_nil in L|].
    eexists. split; [reflexivity|]. exact V.
Qed.

(** The magnitude begins with a digit or a dot. *)
Lemma magnitude_first n rest : proper n -> exists c r, (magnitude_spelled n ++ rest)%string = String c r /\ (c = "."%char \/ exists d, (d < 10)%nat /\ c = glyph d).
Proof.
  intros (Aw & Af & Ne & _). unfold magnitude_spelled, fraction_digits in *. destruct (n_whole n) as [|d l].
  - destruct (n_fraction n) as [f|]; [|now destruct Ne]. eexists _, _. split; [reflexivity|]. now left.
  - eexists _, _. split; [reflexivity|]. right. exists d. split; [now inversion Aw|reflexivity].
Qed.
Lemma magnitude_no n rest l : proper n -> incl l ["-"; "+"; " "; "009"; "010"; "013"]%char -> ~ first_in l (magnitude_spelled n ++ rest).
Proof.
  intros P I (c & r & Ic & E). destruct (magnitude_first n rest P) as (c' & r' & E' & K). rewrite E' in E. injection E as -> ->. apply I in Ic.
  destruct K as [->|(d & L & ->)]; [cbn in Ic; intuition discriminate|]. apply (glyph_sign d L). cbn in *. tauto.
Qed.

Lemma worth_signed n v : v == (inject_Z (whole_worth (n_whole n)) + fraction_worth (fraction_digits n)) * Qpower 10 (exponent_worth (n_exponent n)) ->
  signed match n_sign n with Minus => true | _ => false end v == worth n.
Proof. intros E. unfold worth, signed, with_sign. destruct (n_sign n); now rewrite E. Qed.

Lemma from_chars_spelled n rest : proper n -> stops n rest -> n_sign n <> Plus -> exists v, from_chars (spell n ++ rest) = Some v /\ v == worth n.
Proof.
  intros P S N. destruct (magnitude_spelled_read n rest P S) as (v & E & V). unfold from_chars, spell. rewrite app_assoc_s.
  rewrite sign_taken; [|intros X; contradiction|apply magnitude_no; [assumption|]; intros c I; cbn in *; tauto].
  rewrite E. cbn [option_map]. eexists. split; [reflexivity|]. now apply worth_signed.
Qed.

Lemma skip_blanks l s : blanks l -> ~ first_in [" "; "009"; "010"; "013"]%char s -> skip_spaces (string_of_list_ascii l ++ s) = s.
Proof.
  intros B N. induction B as [|c l C B IH].
  - cbn. destruct s as [|c r]; [reflexivity|]. cbn [skip_spaces]. destruct (is_space c) eqn:E; [|reflexivity]. destruct N. exists c, r. split; [|reflexivity].
    unfold is_space in E. repeat (apply orb_true_iff in E; destruct E as [E|E]); apply Ascii.eqb_eq in E; subst; cbn; tauto.
  - cbn [string_of_list_ascii]. rewrite app_cons. cbn [skip_spaces]. assert (X : is_space c = true) by (destruct C as [<-|[<-|[<-|[<-|[]]]]]; reflexivity). now rewrite X.
Qed.
Lemma spell_no n rest : proper n -> ~ first_in [" "; "009"; "010"; "013"]%char (spell n ++ rest).
Proof.
  intros P. unfold spell. rewrite app_assoc_s. destruct (n_sign n); cbn [sign_text String.append].
  - apply magnitude_no; [assumption|]. intros c I. cbn in *. tauto.
  - intros (c & r & I & E). injection E as <- _. cbn in I. intuition discriminate.
  - intros (c & r & I & E). injection E as <- _. cbn in I. intuition discriminate.
Qed.
Lemma to_double_spelled l n rest : blanks l -> proper n -> stops n rest -> to_double (string_of_list_ascii l ++ spell n ++ rest) == worth n.
Proof.
  intros B P S. destruct (magnitude_spelled_read n rest P S) as (v & E & V). unfold to_double. rewrite skip_blanks by (assumption || now apply spell_no).
  unfold spell. rewrite app_assoc_s. rewrite sign_taken; [|reflexivity|apply magnitude_no; [assumption|]; intros c I; cbn in *; tauto].
  rewrite E. now apply worth_signed.
Qed.

(** ** What is not a number *)

Lemma number_read s : unsigned_decimal s <> None <-> number_first s.
Proof.
  unfold unsigned_decimal. split.
  - intros H. destruct s as [|c r]; [now destruct H|]. destruct (digit_of c) as [z|] eqn:E.
    + destruct (digit_glyph c z E) as (d & L & ->). left. now exists d, r.
    + cbn [take_digits] in H. rewrite E in H. destruct (ascii_dec c ".") as [->|N].
      * right. exists r. split; [|reflexivity]. destruct r as [|c r]; [now destruct H|]. cbn [take_digits] in H. destruct (digit_of c) as [z|] eqn:E'; [|now destruct H].
        destruct (digit_glyph c z E') as (d & L & ->). now exists d, r.
      * exfalso. apply H. destruct c as [[] [] [] [] [] [] [] []]; try reflexivity; try discriminate E. now destruct N.
  - intros [(d & r & L & ->)|(t & (d & r & L & ->) & ->)].
    + cbn [take_digits]. rewrite glyph_digit by assumption. destruct (take_digits r) as [l t]. destruct (match t with String "." t => take_digits t | _ => ([], t) end) as [f t'].
      cbn [app]. discriminate.
    + cbn [take_digits]. change (digit_of ".") with (@None Z). cbn [take_digits]. rewrite glyph_digit by assumption. destruct (take_digits r) as [l t]. cbn [app]. discriminate.
Qed.

Lemma from_chars_none s : from_chars s = None <-> ~ exists g t, g <> Plus /\ s = (sign_text g ++ t)%string /\ number_first t.
Proof.
  unfold from_chars. split.
  - intros H (g & t & G & -> & N). rewrite sign_taken in H; [|congruence|].
    + apply number_read in N. destruct (unsigned_decimal t); [discriminate|now destruct N].
    + destruct N as [D|(t' & D & ->)]; [now apply digit_first_sign|]. intros (c & r & I & E). injection E as <- _. cbn in I. intuition discriminate.
  - intros H. destruct (unsigned_decimal (snd (take_sign false s))) as [v|] eqn:E.
    + exfalso. apply H. assert (N : number_first (snd (take_sign false s))) by (apply number_read; congruence).
      destruct s as [|c r]; [exists NoSign, ""%string; repeat split; [discriminate|exact N]|].
      destruct (ascii_dec c "-") as [->|A]; [exists Minus, r; repeat split; [discriminate|exact N]|].
      exists NoSign, (String c r). repeat split; [discriminate|]. destruct (ascii_dec c "+") as [->|B]; [exact N|]. rewrite take_sign_other in N by assumption. exact N.
    + destruct (take_sign false s) as [neg r]. cbn [snd] in E. now rewrite E.
Qed.

(** ** Whole numbers *)

Lemma to_uint_spelled uint_max bl g l rest : blanks bl -> all_digits l -> ~ digit_first rest -> (l = [] -> ~ first_in ["-"; "+"; " "; "009"; "010"; "013"]%char rest) ->
  to_uint uint_max (string_of_list_ascii bl ++ sign_text g ++ digits_text l ++ rest) = match g with Minus => O | _ => Nat.min uint_max (Z.to_nat (whole_worth l)) end.
Proof.
  intros B A R N. unfold to_uint.
  assert (F : forall x, incl x ["-"; "+"; " "; "009"; "010"; "013"]%char -> ~ first_in x (digits_text l ++ rest)).
  { intros x I (c & r & Ic & E). apply I in Ic. destruct l as [|d l]; [apply N; [reflexivity|]; now exists c, r|]. cbn in E. injection E as <- <-. inversion A; subst. apply (glyph_sign d H1). cbn in *. tauto. }
  rewrite skip_blanks; [|assumption|].
  - rewrite sign_taken; [|reflexivity|apply F; intros c I; cbn in *; tauto]. rewrite take_spelled by assumption. cbn [fst]. rewrite value_worth. now destruct g.
  - destruct g; cbn [sign_text String.append]; [apply F; intros c I; cbn in *; tauto| |]; intros (c & r & I & E); injection E as <- _; cbn in I; intuition discriminate.
Qed.

(** ** Lists *)

Lemma spell_free n : proper n -> free (spell n) = true /\ spell n <> ""%string.
Proof.
  intros P. assert (F : forall a b, free a = true -> free b = true -> free (a ++ b) = true).
  { induction a as [|c a IH]; intros b A B; [assumption|]. rewrite app_cons. cbn [free] in *. apply andb_prop in A as [A1 A2]. now rewrite A1, IH. }
  assert (D : forall l, all_digits l -> free (digits_text l) = true).
  { intros l A. induction A as [|d l L A IH]; [reflexivity|]. cbn [digits_text free]. rewrite IH, andb_true_r. apply below_ten in L. cbn [In] in L.
    repeat (destruct L as [<-|L]; [reflexivity|]). destruct L. }
  assert (G : forall g, free (sign_text g) = true) by (now intros []).
  split.
  - destruct P as (Aw & Af & Ne & Ex). unfold spell, magnitude_spelled, fraction_digits in *. apply F; [apply G|]. apply F; [now apply D|]. apply F.
    + destruct (n_fraction n) as [f|]; [|reflexivity]. cbn. now apply D.
    + destruct (n_exponent n) as [[[c g] l]|]; [|reflexivity]. destruct Ex as (I & A & _). cbn [exponent_text free].
      rewrite F; [|apply G|now apply D]. destruct I as [<-|[<-|[]]]; reflexivity.
  - destruct (magnitude_first n "" P) as (c & r & E & _). rewrite str_app_nil in E. unfold spell. rewrite E. now destruct (n_sign n).
Qed.
Lemma listed_join l : listed l = join l.
Proof. induction l as [|x l IH]; [reflexivity|]. destruct l as [|y l]; [reflexivity|]. change (x ++ "," ++ listed (y :: l) = x ++ String "," (join (y :: l)))%string. now rewrite IH. Qed.
Lemma split_listed l : Forall proper l -> split (listed (map spell l)) = map spell l.
Proof. intros F. rewrite listed_join. apply split_join. intros s I. apply in_map_iff in I as (n & <- & I). rewrite Forall_forall in F. now apply spell_free, F. Qed.
Lemma stops_nothing n : stops n "".
Proof.
  split; [intros (d & r & _ & E); discriminate E|]. split; [intros _ _ (c & r & _ & E); discriminate E|intros _ (c & g & t & _ & _ & E); discriminate E].
Qed.
