(** Text.v - reading a model file from its bytes: decoding, lines, and the numbers in
    its fields (flex_model.py 1846-1849, performance_model.py 1074-1077, and int() and
    float() as load_model_file calls them).

    A Python text is the string of bytes of its UTF-8 encoding.  int() and float() are
    modelled for ASCII texts: digits and blanks outside ASCII are refused here, and so
    are "inf" and "nan".  A float is the exact rational number of its text, and numbers
    of more than 4300 digits, which recent versions of Python refuse, are accepted. *)
From Verif Require Import Base Graph Objects Sim Api Loader.

Definition code (c : ascii) : nat := nat_of_ascii c.
Definition between (a b : nat) (c : ascii) : bool := (a <=? code c)%nat && (code c <=? b)%nat.

(** open(data_file, "r", encoding="utf-8-sig"): well-formed UTF-8 or UnicodeDecodeError
    (flex_model.py 1846) *)
Fixpoint utf8_ok (t : string) : bool :=
  match t with
  | EmptyString => true
  | String a t1 =>
      if between 0 127 a then utf8_ok t1
      else match t1 with
           | EmptyString => false
           | String b t2 =>
               if between 194 223 a then between 128 191 b && utf8_ok t2
               else match t2 with
                    | EmptyString => false
                    | String c t3 =>
                        if between 224 239 a then
                          between (if Nat.eqb (code a) 224 then 160 else 128) (if Nat.eqb (code a) 237 then 159 else 191) b &&
                          between 128 191 c && utf8_ok t3
                        else match t3 with
                             | EmptyString => false
                             | String d t4 =>
                                 between 240 244 a &&
                                 between (if Nat.eqb (code a) 240 then 144 else 128) (if Nat.eqb (code a) 244 then 143 else 191) b &&
                                 between 128 191 c && between 128 191 d && utf8_ok t4
                             end
                    end
           end
  end.

(** The signature that utf-8-sig skips at the beginning *)
Definition skip_bom (t : string) : string :=
  match t with
  | String a (String b (String c r)) =>
      if Nat.eqb (code a) 239 && Nat.eqb (code b) 187 && Nat.eqb (code c) 191 then r else t
  | _ => t
  end.

(** f.read() of a file opened as text: universal newlines (flex_model.py 1847) *)
Fixpoint newlines (t : string) : string :=
  match t with
  | EmptyString => EmptyString
  | String a r =>
      if Nat.eqb (code a) 13 then
        match r with
        | String b r' => if Nat.eqb (code b) 10 then String b (newlines r') else String "010" (newlines r)
        | EmptyString => String "010" EmptyString
        end
      else String a (newlines r)
  end.

(** data.splitlines() (flex_model.py 1849); the result is the line that has been begun
    (None if the text is at an end) and the lines after it *)
Definition put (c : ascii) (p : option string * list string) : option string * list string :=
  (Some (match fst p with Some l => String c l | None => String c EmptyString end), snd p).
Definition cut (p : option string * list string) : option string * list string :=
  (Some EmptyString, match fst p with Some l => l :: snd p | None => snd p end).
Fixpoint lines_of (t : string) : option string * list string :=
  match t with
  | EmptyString => (None, [])
  | String a r =>
      let rest := lines_of r in
      if Nat.eqb (code a) 13 then
        match r with
        | String b r' => if Nat.eqb (code b) 10 then cut (lines_of r') else cut rest
        | EmptyString => cut rest
        end
      else if between 10 12 a || between 28 30 a then cut rest
      else if Nat.eqb (code a) 194 then
        match r with
        | String b r' => if Nat.eqb (code b) 133 then cut (lines_of r') else put a rest
        | EmptyString => put a rest
        end
      else if Nat.eqb (code a) 226 then
        match r with
        | String b (String c r') =>
            if Nat.eqb (code b) 128 && between 168 169 c then cut (lines_of r') else put a rest
        | _ => put a rest
        end
      else put a rest
  end.
Definition splitlines (t : string) : list string :=
  let p := lines_of t in match fst p with Some l => l :: snd p | None => snd p end.

(** The lines of a file (flex_model.py 1846-1849); UnicodeDecodeError is a ValueError *)
Definition file_lines (bytes : string) : res (list string) :=
  if utf8_ok bytes then Ok (splitlines (newlines (skip_bom bytes))) else Err ValueError.

(** ** int(text) and float(text) *)

(** The blanks that int() and float() skip around a number *)
Definition blank (c : ascii) : bool := between 9 13 c || Nat.eqb (code c) 32.
Fixpoint skip_blanks (l : list ascii) : list ascii :=
  match l with c :: r => if blank c then skip_blanks r else l | [] => [] end.
Definition strip (t : string) : list ascii := rev (skip_blanks (rev (skip_blanks (list_ascii_of_string t)))).

Definition digit (c : ascii) : option Z :=
  if between 48 57 c then Some (Z.of_nat (code c) - 48)%Z else None.
(** Digits, with single underscores between them: their value, how many they are, and
    what follows *)
Fixpoint more_digits (v : Z) (n : nat) (l : list ascii) : Z * nat * list ascii :=
  match l with
  | [] => (v, n, l)
  | c :: r =>
      match digit c with
      | Some d => more_digits (10 * v + d)%Z (S n) r
      | None =>
          if Nat.eqb (code c) 95 then
            match r with
            | c' :: r' => match digit c' with Some d => more_digits (10 * v + d)%Z (S n) r' | None => (v, n, l) end
            | [] => (v, n, l)
            end
          else (v, n, l)
      end
  end.
Definition digits (l : list ascii) : option (Z * nat * list ascii) :=
  match l with
  | c :: r => match digit c with Some d => Some (more_digits d 1 r) | None => None end
  | [] => None
  end.
Definition sign (l : list ascii) : Z * list ascii :=
  match l with
  | c :: r => if Nat.eqb (code c) 45 then ((-1)%Z, r) else if Nat.eqb (code c) 43 then (1%Z, r) else (1%Z, l)
  | [] => (1%Z, l)
  end.

(** int(text); None is ValueError *)
Definition int_text (t : string) : option Z :=
  let '(sg, l) := sign (strip t) in
  match digits l with
  | Some (v, _, []) => Some (sg * v)%Z
  | _ => None
  end.

(** The exponent: None is malformed *)
Definition exponent (l : list ascii) : option Z :=
  match l with
  | [] => Some 0%Z
  | c :: r =>
      if Nat.eqb (code c) 101 || Nat.eqb (code c) 69 then
        let '(sg, l') := sign r in
        match digits l' with Some (v, _, []) => Some (sg * v)%Z | _ => None end
      else None
  end.
(** [m] times ten to the power [e] *)
Definition scaled (m e : Z) : Q :=
  if (0 <=? e)%Z then inject_Z (m * 10 ^ e) else Qmake m (Z.to_pos (10 ^ (- e))).

(** float(text); None is ValueError *)
Definition float_text (t : string) : option Q :=
  let '(sg, l) := sign (strip t) in
  let '(v, n, l1) := match digits l with Some x => x | None => (0%Z, O, l) end in
  let '(w, m, l2) := match l1 with
                     | c :: r => if Nat.eqb (code c) 46
                                 then match digits r with Some x => x | None => (0%Z, O, r) end
                                 else (0%Z, O, l1)
                     | [] => (0%Z, O, l1)
                     end in
  if Nat.eqb (n + m) 0 then None
  else match exponent l2 with
       | Some e => Some (scaled (sg * (v * 10 ^ Z.of_nat m + w)) (e - Z.of_nat m))
       | None => None
       end.

(** load_model_file of a file with these bytes (flex_model.py 1732-2031,
    performance_model.py 974-1234) *)
Definition load_file (k : kind) (bytes : string) : res st :=
  rbind (file_lines bytes) (load_model_file k int_text float_text).
