(** SpecText.v - how model files and the numbers in them are written (C99-C101). *)
From Verif Require Import Base Spec SpecLoad.
Open Scope string_scope.

(** A byte with a code from [a] to [b] *)
Definition byte (a b : nat) (c : ascii) : Prop := (a <= nat_of_ascii c <= b)%nat.

(** Well-formed UTF-8 (the table of the Unicode standard) *)
Inductive utf8_char : string -> Prop :=
| u1 a : byte 0 127 a -> utf8_char (String a "")
| u2 a b : byte 194 223 a -> byte 128 191 b -> utf8_char (String a (String b ""))
| u3_e0 b c : byte 160 191 b -> byte 128 191 c -> utf8_char (String "224" (String b (String c "")))
| u3 a b c : byte 225 236 a \/ byte 238 239 a -> byte 128 191 b -> byte 128 191 c -> utf8_char (String a (String b (String c "")))
| u3_ed b c : byte 128 159 b -> byte 128 191 c -> utf8_char (String "237" (String b (String c "")))
| u4_f0 b c d : byte 144 191 b -> byte 128 191 c -> byte 128 191 d -> utf8_char (String "240" (String b (String c (String d ""))))
| u4 a b c d : byte 241 243 a -> byte 128 191 b -> byte 128 191 c -> byte 128 191 d -> utf8_char (String a (String b (String c (String d ""))))
| u4_f4 b c d : byte 128 143 b -> byte 128 191 c -> byte 128 191 d -> utf8_char (String "244" (String b (String c (String d "")))).
Inductive utf8 : string -> Prop :=
| utf8_nil : utf8 ""
| utf8_cons c t : utf8_char c -> utf8 t -> utf8 (c ++ t).

(** The signature some programs put at the beginning of a text file *)
Definition signature : string := String "239" (String "187" (String "191" "")).

(** What ends a line of a file *)
Definition LF : string := String "010" "".
Definition CR : string := String "013" "".
Definition line_ends : list string := [LF; CR; CR ++ LF].
(** What splits a line besides: vertical tab, form feed, file, group and record
    separators, and the characters U+0085, U+2028 and U+2029 *)
Definition other_ends : list string :=
  [String "011" ""; String "012" ""; String "028" ""; String "029" ""; String "030" "";
   String "194" (String "133" ""); String "226" (String "128" (String "168" "")); String "226" (String "128" (String "169" ""))].
Definition one_line (l : string) : Prop := forall a e b, In e (line_ends ++ other_ends)%list -> l <> a ++ e ++ b.

(** A text that consists of these lines: each line is followed by one of the three line
    ends, the last one possibly by nothing.  (A lone CR before an LF would be one line
    end, not two.) *)
Inductive wrote : list string -> string -> Prop :=
| wr_none : wrote [] ""
| wr_last l : one_line l -> l <> "" -> wrote [l] l
| wr_line l e ls t : one_line l -> In e line_ends -> ~ (e = CR /\ exists t', t = LF ++ t') -> wrote ls t -> wrote (l :: ls) (l ++ e ++ t).

(** Decimal numbers: digits with single underscores between them, their value and how
    many they are *)
Definition digit_is (c : ascii) (d : Z) : Prop := (0 <= d <= 9)%Z /\ nat_of_ascii c = Z.to_nat (48 + d).
Inductive numeral : string -> Z -> nat -> Prop :=
| nu_one c d : digit_is c d -> numeral (String c "") d 1
| nu_more t v n c d : numeral t v n -> digit_is c d -> numeral (t ++ String c "") (10 * v + d) (S n)
| nu_score t v n c d : numeral t v n -> digit_is c d -> numeral (t ++ "_" ++ String c "") (10 * v + d) (S n).
Definition signed (t : string) (s : Z) : Prop := (t = "" /\ s = 1%Z) \/ (t = "+" /\ s = 1%Z) \/ (t = "-" /\ s = (-1)%Z).
Definition blanks (t : string) : Prop := forall c, In c (list_ascii_of_string t) -> byte 9 13 c \/ c = " "%char.

(** A text that int() reads as [z] *)
Definition an_int (t : string) (z : Z) : Prop :=
  exists a sg ds b s v n, t = a ++ sg ++ ds ++ b /\ blanks a /\ blanks b /\ signed sg s /\ numeral ds v n /\ z = (s * v)%Z.

(** A number with a fraction: digits before the point, digits after it, or both *)
Inductive decimal : string -> Q -> Prop :=
| de_whole t v n : numeral t v n -> decimal t (inject_Z v)
| de_point t v n : numeral t v n -> decimal (t ++ ".") (inject_Z v)
| de_frac t v n : numeral t v n -> decimal ("." ++ t) (inject_Z v / inject_Z (10 ^ Z.of_nat n))
| de_both t v n t' v' n' : numeral t v n -> numeral t' v' n' -> decimal (t ++ "." ++ t') (inject_Z v + inject_Z v' / inject_Z (10 ^ Z.of_nat n')).
Inductive power : string -> Q -> Prop :=
| po_none : power "" 1
| po_up e sg t v n : In e ["e"; "E"] -> signed sg 1 -> numeral t v n -> power (e ++ sg ++ t) (inject_Z (10 ^ v))
| po_down e t v n : In e ["e"; "E"] -> numeral t v n -> power (e ++ "-" ++ t) (1 / inject_Z (10 ^ v)).
(** A text that float() reads as [q] *)
Definition a_float (t : string) (q : Q) : Prop :=
  exists a sg m e b s x y, t = a ++ sg ++ m ++ e ++ b /\ blanks a /\ blanks b /\ signed sg s /\ decimal m x /\ power e y /\
    (q == inject_Z s * x * y)%Q.

(** The layout of a model file: the tables in order, each with its title and a line of
    column headers, and empty lines between them; the table of LSPs is optional *)
Definition titles : list string := ["INTERFACES_TABLE"; "NODES_TABLE"; "DEMANDS_TABLE"; "RSVP_LSP_TABLE"].
Definition laid_out (ifl ndl dml : list string) (lsl : option (list string)) (lines : list string) : Prop :=
  exists h1 h2 h3 h4, ~ In h1 titles /\ ~ In h2 titles /\ ~ In h3 titles /\ ~ In h4 titles /\
    (forall l, In l (ifl ++ ndl ++ dml)%list -> ~ In l ("" :: titles)) /\
    lines = (["INTERFACES_TABLE"; h1] ++ ifl ++ [""; "NODES_TABLE"; h2] ++ ndl ++ [""; "DEMANDS_TABLE"; h3] ++ dml ++
             match lsl with Some l => [""; "RSVP_LSP_TABLE"; h4] ++ l | None => [] end)%list.
