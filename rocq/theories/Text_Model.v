(** Model of the functions of the C++ standard library that write and read numbers as text (operator<< and operator>> of streams
    with their default settings, std::getline, atoi, atof) as far as FANN.cpp, LibSVM.cpp and Net.cpp use them.  Characters are
    those of the C locale. *)
From Coq Require Import Ascii.
From Verif Require Import Base.
Local Open Scope R_scope.

Definition text := list ascii.

(** * Characters *)
Definition isspace (c : ascii) : bool :=
  let n := nat_of_ascii c in (Nat.eqb n 32 || (Nat.leb 9 n && Nat.leb n 13))%bool.
Definition digitOf (c : ascii) : option nat :=
  let n := nat_of_ascii c in if (Nat.leb 48 n && Nat.leb n 57)%bool then Some (n - 48)%nat else None.
Definition digitChar (d : nat) : ascii := ascii_of_nat (48 + d).
Definition chars (ds : list nat) : text := map digitChar ds.

(** * Writing *)
(** operator<<(int) for numbers that are not negative, as /repo/src/Net.cpp 43, /repo/src/FANN.cpp 57 and /repo/src/LibSVM.cpp 140
    use it; [fuel] bounds the number of digits *)
Fixpoint natDigits (fuel n : nat) : list nat :=
  match fuel with
  | 0%nat => [n]
  | S fuel => if Nat.ltb n 10 then [n] else natDigits fuel (n / 10) ++ [(n mod 10)%nat]
  end.
Definition printNat (n : nat) : text := chars (natDigits n n).

(** operator<<(double) with the default precision 6, that is printf("%.6g"); used in /repo/src/FANN.cpp 60-61,
    /repo/src/LibSVM.cpp 140-146 and /repo/src/Net.cpp 43-178, 233 and 437.
    Simplification: no infinities, no NaN, no negative zero. *)
(** rounding to the nearest integer, ties to even *)
Definition roundEven (y : R) : Z :=
  let f := Zfloor y in
  if Rltb (y - IZR f) (1 / 2) then f
  else if Rltb (1 / 2) (y - IZR f) then (f + 1)%Z
  else if Z.even f then f else (f + 1)%Z.
(** the digits m and the exponent X of the number m * 10 ^ (X - 5) that is written for a > 0 *)
Definition scientific (a : R) : Z * Z :=
  let X := Zfloor (ln a / ln 10) in
  let m := roundEven (a * powerRZ 10 (5 - X)) in
  if Z.eqb m (10 ^ 6) then ((10 ^ 5)%Z, (X + 1)%Z) else (m, X).
(** the last k digits of m *)
Fixpoint fixedDigits (k : nat) (m : Z) : list nat :=
  match k with 0%nat => [] | S k => fixedDigits k (m / 10) ++ [Z.to_nat (m mod 10)] end.
(** without trailing zeros *)
Fixpoint strip (ds : list nat) : list nat :=
  match ds with
  | [] => []
  | d :: ds => match strip ds with [] => if Nat.eqb d 0 then [] else [d] | r => d :: r end
  end.
Definition point (ds : list nat) : text := match ds with [] => [] | _ => "."%char :: chars ds end.
Definition printExponent (X : Z) : text :=
  "e"%char :: (if Z.ltb X 0 then "-"%char else "+"%char) ::
  chars ((if Z.ltb (Z.abs X) 10 then [0%nat] else []) ++ natDigits (Z.to_nat (Z.abs X)) (Z.to_nat (Z.abs X))).
Definition printPositive (a : R) : text :=
  let '(m, X) := scientific a in
  let ds := fixedDigits 6 m in
  if (Z.leb (-4) X && Z.ltb X 6)%bool then
    if Z.leb 0 X then
      let k := (Z.to_nat X + 1)%nat in chars (firstn k ds) ++ point (strip (skipn k ds))
    else chars [0%nat] ++ point (strip (repeat 0%nat (Z.to_nat (- X) - 1) ++ ds))
  else chars (firstn 1 ds) ++ point (strip (skipn 1 ds)) ++ printExponent X.
Definition printDouble (x : R) : text :=
  if Reqb x 0 then chars [0%nat]
  else if Rltb x 0 then "-"%char :: printPositive (- x) else printPositive x.

(** * Reading *)
Fixpoint takeDigits (t : text) : list nat * text :=
  match t with
  | [] => ([], [])
  | c :: t' => match digitOf c with Some d => let '(ds, t'') := takeDigits t' in (d :: ds, t'') | None => ([], t) end
  end.
(** an optional sign; true is minus *)
Definition takeSign (t : text) : bool * text :=
  match t with
  | c :: t' => if Ascii.eqb c "-" then (true, t') else if Ascii.eqb c "+" then (false, t') else (false, t)
  | [] => (false, t)
  end.
Definition valueOf (ds : list nat) : Z := fold_left (fun a d => (10 * a + Z.of_nat d)%Z) ds 0%Z.
Definition signed (neg : bool) (z : Z) : Z := if neg then (- z)%Z else z.

(** the fraction *)
Definition takeFraction (t : text) : list nat * text :=
  match t with c :: t' => if Ascii.eqb c "." then takeDigits t' else ([], t) | [] => ([], t) end.
Definition isE (c : ascii) : bool := (Ascii.eqb c "e" || Ascii.eqb c "E")%bool.
Definition decimal (neg : bool) (ds fs : list nat) (e : Z) : R :=
  IZR (signed neg (valueOf (ds ++ fs))) * powerRZ 10 (e - Z.of_nat (length fs)).
(** the characters that operator>>(double) extracts and the number, if they are one.  An exponent without digits is an error.
    Simplifications: no overflow; digits are not separated into groups. *)
Definition scanDouble (t : text) : option R * text :=
  let '(neg, t) := takeSign t in
  let '(ds, t) := takeDigits t in
  let '(fs, t) := takeFraction t in
  match ds ++ fs with
  | [] => (None, t)
  | _ =>
      match t with
      | c :: t' =>
          if isE c then
            let '(eneg, t') := takeSign t' in
            let '(es, t') := takeDigits t' in
            match es with [] => (None, t') | _ => (Some (decimal neg ds fs (signed eneg (valueOf es))), t') end
          else (Some (decimal neg ds fs 0), t)
      | [] => (Some (decimal neg ds fs 0), t)
      end
  end.
(** operator>>(int).  Simplification: no overflow. *)
Definition scanInt (t : text) : option Z * text :=
  let '(neg, t) := takeSign t in
  let '(ds, t) := takeDigits t in
  match ds with [] => (None, t) | _ => (Some (signed neg (valueOf ds)), t) end.
Fixpoint skipSpaces (t : text) : text :=
  match t with [] => [] | c :: t' => if isspace c then skipSpaces t' else t end.
Fixpoint scanWord (t : text) : text * text :=
  match t with
  | [] => ([], [])
  | c :: t' => if isspace c then ([], t) else let '(w, t'') := scanWord t' in (c :: w, t'')
  end.

(** An input stream: the characters that are left and the flags eof and fail *)
Record textstream := mkIn { rest : text; eofbit : bool; failbit : bool }.
Definition fromText (t : text) : textstream := mkIn t false false.
(** [stream >> v]: nothing happens unless the stream is good; white space is skipped; reaching the end of the text sets eof *)
Definition extract {A} (scan : text -> option A * text) (s : textstream) : option A * textstream :=
  if (eofbit s || failbit s)%bool then (None, mkIn (rest s) (eofbit s) true)
  else match skipSpaces (rest s) with
  | [] => (None, mkIn [] true true)
  | t => let '(v, t') := scan t in
         (v, mkIn t' (match t' with [] => true | _ => false end) (match v with None => true | _ => false end))
  end.
Definition extractInt : textstream -> option Z * textstream := extract scanInt.
Definition extractDouble : textstream -> option R * textstream := extract scanDouble.
Definition extractWord : textstream -> option text * textstream := extract (fun t => let '(w, t') := scanWord t in (Some w, t')).

(** the lines of a text: [while(stream.good()) std::getline(stream, buffer)], LibSVM.cpp 34-38.  After the last end of line an empty
    line is read. *)
Fixpoint linesOf (t : text) : list text :=
  match t with
  | [] => [[]]
  | c :: t' => if Ascii.eqb c "010" then [] :: linesOf t' else match linesOf t' with l :: ls => (c :: l) :: ls | [] => [[c]] end
  end.
(** all words of a line: [while(ss >> token)], LibSVM.cpp 40-45; [fuel] bounds the number of words *)
Fixpoint wordsOf (fuel : nat) (t : text) : list text :=
  match fuel with
  | 0%nat => []
  | S fuel => match skipSpaces t with [] => [] | t => let '(w, t') := scanWord t in w :: wordsOf fuel t' end
  end.

(** [word.find_first_of(':')]: the parts before and after the first colon; the second is the whole word if there is none, as
    [npos + 1] is 0 (LibSVM.cpp 57-61 and 100-103) *)
Fixpoint splitColon (w : text) : text * option text :=
  match w with
  | [] => ([], None)
  | c :: w' => if Ascii.eqb c ":" then ([], Some w') else let '(a, b) := splitColon w' in (c :: a, b)
  end.
(** atoi: 0 if there is no number *)
Definition atoi (t : text) : Z := match fst (scanInt (skipSpaces t)) with Some z => z | None => 0%Z end.
(** atof: the longest prefix that is a number, 0 if there is none.  Simplification: hexadecimal numbers, infinities and NaN are not
    recognized. *)
Definition atof (t : text) : R :=
  let '(neg, t) := takeSign (skipSpaces t) in
  let '(ds, t) := takeDigits t in
  let '(fs, t) := takeFraction t in
  match ds ++ fs with
  | [] => 0
  | _ =>
      match t with
      | c :: t' =>
          let '(eneg, t') := takeSign t' in
          let '(es, _) := takeDigits t' in
          if (isE c && negb (match es with [] => true | _ => false end))%bool then decimal neg ds fs (signed eneg (valueOf es))
          else decimal neg ds fs 0
      | [] => decimal neg ds fs 0
      end
  end.
