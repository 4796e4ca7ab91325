(** Lists of regular expressions joined into one: make_match_fn_from_regex_list of vmoe/utils.py
    and freeze_weights of vmoe/train/optimizer.py, with the part of Python's module re (not in /repo)
    that they depend on: the parser (Lib/sre_parse.py) and the backtracking matcher.  Simplified: a
    character is one byte and the classes \d, \w, \s are the ASCII ones; braces, flags, comments,
    lookbehind, conditions, possessive repetitions and numeric character codes are not modelled:
    compiling such a text gives [Unsupported], about which nothing is claimed. *)
From Coq Require Import Ascii String List Arith Bool.
Import ListNotations.
Local Open Scope list_scope.
Local Open Scope nat_scope.

(** ** Abstract syntax (what re.compile makes of a text) *)
Inductive at_code := AtBegin | AtEnd | AtEndString | AtBoundary | AtNonBoundary.
(** Ranges of characters, possibly complemented; \d, \w and \s are such sets too. *)
Inductive citem := Range (lo hi : ascii) | Not (l : list (ascii * ascii)).
Inductive re :=
| Eps
| Chr (c : ascii)
| Any                                   (* everything but a newline *)
| CSet (negated : bool) (l : list citem)
| At (a : at_code)
| Cat (a b : re)
| Alt (a b : re)
| Opt (greedy : bool) (a : re)
| Star (greedy : bool) (a : re)
| Plus (greedy : bool) (a : re)
| Grp (n : nat) (name : option string) (a : re)  (* capturing group number n *)
| Look (positive : bool) (a : re)       (* lookahead *)
| Ref (n : nat).                        (* backreference *)

(** ** Parser *)
(** State of the parser (sre_parse.State): number of the next group, names, groups not yet closed. *)
Record pstate := { groups : nat; names : list (string * nat); opened : list nat }.
Definition start : pstate := {| groups := 1; names := []; opened := [] |}.
Definition close_group (n : nat) (st : pstate) : pstate :=
  {| groups := groups st; names := names st; opened := remove Nat.eq_dec n (opened st) |}.

Inductive parsed (T : Type) := Done (x : T) | ReError | Unsupported | OutOfFuel.
Arguments Done {T}. Arguments ReError {T}. Arguments Unsupported {T}. Arguments OutOfFuel {T}.
Definition pbind {T U} (x : parsed T) (f : T -> parsed U) : parsed U :=
  match x with Done a => f a | ReError => ReError | Unsupported => Unsupported | OutOfFuel => OutOfFuel end.

Definition between (lo hi c : ascii) : bool :=
  (nat_of_ascii lo <=? nat_of_ascii c) && (nat_of_ascii c <=? nat_of_ascii hi).
Definition is_digit : ascii -> bool := between "0" "9".
Definition is_letter (c : ascii) : bool := between "a" "z" c || between "A" "Z" c.
Definition is_word (c : ascii) : bool := is_letter c || is_digit c || Ascii.eqb c "_".
Definition digits : list (ascii * ascii) := [("0", "9")]%char.
Definition word : list (ascii * ascii) := [("a", "z"); ("A", "Z"); ("0", "9"); ("_", "_")]%char.
Definition space : list (ascii * ascii) := [(" ", " "); (ascii_of_nat 9, ascii_of_nat 13)]%char.
Definition ranges : list (ascii * ascii) -> list citem := map (fun p => Range (fst p) (snd p)).

(** Escapes \n, \t, ... that stand for a character. *)
Definition char_escape (c : ascii) : option ascii :=
  match c with
  | "n" => Some (ascii_of_nat 10) | "t" => Some (ascii_of_nat 9) | "r" => Some (ascii_of_nat 13)
  | "f" => Some (ascii_of_nat 12) | "v" => Some (ascii_of_nat 11) | "a" => Some (ascii_of_nat 7)
  | _ => None
  end%char.
(** Escapes that stand for a class of characters. *)
Definition class_escape (c : ascii) : option (list citem) :=
  match c with
  | "d" => Some (ranges digits) | "w" => Some (ranges word) | "s" => Some (ranges space)
  | "D" => Some [Not digits] | "W" => Some [Not word] | "S" => Some [Not space]
  | _ => None
  end%char.
Definition at_escape (c : ascii) : option at_code :=
  match c with
  | "A" => Some AtBegin | "Z" => Some AtEndString | "b" => Some AtBoundary | "B" => Some AtNonBoundary
  | _ => None
  end%char.
Definition code_escape (c : ascii) : bool :=
  match c with "x" | "u" | "U" | "N" | "0" => true | _ => false end%char.

Fixpoint lookup (k : string) (l : list (string * nat)) : option nat :=
  match l with
  | [] => None
  | (k', n) :: r => if String.eqb k k' then Some n else lookup k r
  end.
(** A reference to group [n] (sre_parse._escape): it must exist and be closed. *)
Definition reference (st : pstate) (n : nat) : parsed re :=
  if n <? groups st then
    if existsb (Nat.eqb n) (opened st) then ReError else Done (Ref n)
  else ReError.

(** sre_parse._escape: what follows a backslash outside of a set. *)
Definition parse_escape (st : pstate) (s : string) : parsed (re * string) :=
  match s with
  | EmptyString => ReError
  | String c r =>
    if code_escape c then Unsupported else
    if is_digit c then
      match r with
      | String d _ => if is_digit d then Unsupported
                      else pbind (reference st (nat_of_ascii c - 48)) (fun x => Done (x, r))
      | EmptyString => pbind (reference st (nat_of_ascii c - 48)) (fun x => Done (x, r))
      end
    else match class_escape c, at_escape c, char_escape c with
         | Some l, _, _ => Done (CSet false l, r)
         | None, Some a, _ => Done (At a, r)
         | None, None, Some d => Done (Chr d, r)
         | None, None, None => if is_letter c then ReError else Done (Chr c, r)
         end
  end.

(** One member of a set (the loop of sre_parse._parse for "["): a character that may begin a range, or
    a class. *)
Definition set_member (c : ascii) (r : string) : parsed (ascii + list citem) * string :=
  if Ascii.eqb c "\" then
    match r with
    | EmptyString => (ReError, r)
    | String d r1 =>
      if code_escape d || is_digit d then (Unsupported, r1) else
      match class_escape d, char_escape d with
      | Some l, _ => (Done (inr l), r1)
      | None, Some e => (Done (inl e), r1)
      | None, None => if Ascii.eqb d "b" then (Done (inl (ascii_of_nat 8)), r1)
                      else if is_letter d then (ReError, r1) else (Done (inl d), r1)
      end
    end
  else (Done (inl c), r).
Definition member (m : ascii + list citem) : list citem :=
  match m with inl c => [Range c c] | inr l => l end.
(** The members up to the closing bracket; [first] says whether a bracket would be a member. *)
Fixpoint parse_set (fuel : nat) (first : bool) (s : string) : parsed (list citem * string) :=
  match fuel with
  | 0 => OutOfFuel
  | S f =>
    match s with
    | EmptyString => ReError
    | String c r =>
      if Ascii.eqb c "]" && negb first then Done ([], r)
      else
        let '(m, r1) := set_member c r in
        pbind m (fun m1 =>
        match r1 with
        | String d r2 =>
          if Ascii.eqb d "-" then
            match r2 with
            | EmptyString => ReError
            | String e r3 =>
              if Ascii.eqb e "]" then Done (member m1 ++ [Range "-" "-"]%char, r3)
              else
                let '(n, r4) := set_member e r3 in
                pbind n (fun n1 =>
                match m1, n1 with
                | inl lo, inl hi =>
                  if nat_of_ascii hi <? nat_of_ascii lo then ReError
                  else pbind (parse_set f false r4) (fun y => Done (Range lo hi :: fst y, snd y))
                | _, _ => ReError
                end)
            end
          else pbind (parse_set f false r1) (fun y => Done (member m1 ++ fst y, snd y))
        | EmptyString => ReError
        end)
    end
  end.

(** The name of a group, up to the character [stop] (Tokenizer.getuntil and the check of names). *)
Fixpoint until (stop : ascii) (s : string) : option (string * string) :=
  match s with
  | EmptyString => None
  | String c r => if Ascii.eqb c stop then Some (EmptyString, r)
                  else match until stop r with Some (n, r') => Some (String c n, r') | None => None end
  end.
Definition all_chars (f : ascii -> bool) (s : string) : bool := forallb f (list_ascii_of_string s).
Definition is_name (s : string) : bool :=
  match s with EmptyString => false | String c _ => negb (is_digit c) && all_chars is_word s end.

(** sre_parse._parse: the quantifier after an item, if any.  Anchors cannot be repeated; nor can a
    repetition. *)
Definition quantifier (c : ascii) : bool :=
  match c with "*" | "+" | "?" => true | _ => false end%char.
Definition repeated (c : ascii) (greedy : bool) (r : re) : re :=
  match c with "*" => Star greedy r | "+" => Plus greedy r | _ => Opt greedy r end%char.
Definition parse_repeat (r : re) (s : string) : parsed (re * string) :=
  match s with
  | EmptyString => Done (r, s)
  | String c s1 =>
    if Ascii.eqb c "{" then Unsupported else
    if quantifier c then
      match r with
      | At _ => ReError
      | _ =>
        let '(greedy, s2) := match s1 with
                             | String d s' => if Ascii.eqb d "?" then (false, s') else (true, s1)
                             | EmptyString => (true, s1) end in
        match s2 with
        | String d _ => if Ascii.eqb d "{" || Ascii.eqb d "+" then Unsupported
                        else if quantifier d then ReError else Done (repeated c greedy r, s2)
        | EmptyString => Done (repeated c greedy r, s2)
        end
      end
    else Done (r, s)
  end.

Section Parser.
(** [parse_sub] is the parser for what is inside of a pair of parentheses. *)
Variable parse_sub : pstate -> string -> parsed (re * pstate * string).
(** The closing parenthesis. *)
Definition parse_close (x : re * pstate * string) : parsed (re * pstate * string) :=
  let '(r, st, s) := x in
  match s with
  | String c s1 => if Ascii.eqb c ")" then Done (r, st, s1) else ReError
  | EmptyString => ReError
  end.
(** A capturing group with or without a name (State.opengroup and closegroup). *)
Definition parse_group (name : option string) (st : pstate) (s : string) : parsed (re * pstate * string) :=
  let n := groups st in
  let named := match name with
               | None => Some (names st)
               | Some k => match lookup k (names st) with Some _ => None | None => Some (names st ++ [(k, n)]) end
               end in
  match named with
  | None => ReError
  | Some ns =>
    pbind (pbind (parse_sub {| groups := S n; names := ns; opened := n :: opened st |} s) parse_close)
          (fun x => Done (Grp n name (fst (fst x)), close_group n (snd (fst x)), snd x))
  end.
(** What follows an opening parenthesis. *)
Definition parse_paren (st : pstate) (s : string) : parsed (re * pstate * string) :=
  match s with
  | EmptyString => ReError
  | String c s1 =>
    if Ascii.eqb c "?" then
      match s1 with
      | EmptyString => ReError
      | String d s2 =>
        if Ascii.eqb d ":" then pbind (parse_sub st s2) parse_close
        else if Ascii.eqb d "=" then
          pbind (pbind (parse_sub st s2) parse_close) (fun x => Done (Look true (fst (fst x)), snd (fst x), snd x))
        else if Ascii.eqb d "!" then
          pbind (pbind (parse_sub st s2) parse_close) (fun x => Done (Look false (fst (fst x)), snd (fst x), snd x))
        else if Ascii.eqb d "P" then
          match s2 with
          | EmptyString => ReError
          | String e s3 =>
            if Ascii.eqb e "<" then
              match until ">" s3 with
              | None => ReError
              | Some (k, s4) => if is_name k then parse_group (Some k) st s4 else ReError
              end
            else if Ascii.eqb e "=" then
              match until ")" s3 with
              | None => ReError
              | Some (k, s4) =>
                match lookup k (names st) with
                | Some n => pbind (reference st n) (fun x => Done (x, st, s4))
                | None => ReError
                end
              end
            else ReError
          end
        else Unsupported
      end
    else parse_group None st s
  end.
(** One item (the body of the loop of sre_parse._parse). *)
Definition parse_item (st : pstate) (s : string) : parsed (re * pstate * string) :=
  match s with
  | EmptyString => ReError
  | String c r =>
    if Ascii.eqb c "(" then parse_paren st r
    else if Ascii.eqb c "\" then pbind (parse_escape st r) (fun x => Done (fst x, st, snd x))
    else if Ascii.eqb c "[" then
      let '(neg, r1) := match r with
                        | String d r' => if Ascii.eqb d "^" then (true, r') else (false, r)
                        | EmptyString => (false, r) end in
      pbind (parse_set (S (String.length r1)) true r1) (fun x => Done (CSet neg (fst x), st, snd x))
    else if Ascii.eqb c "." then Done (Any, st, r)
    else if Ascii.eqb c "^" then Done (At AtBegin, st, r)
    else if Ascii.eqb c "$" then Done (At AtEnd, st, r)
    else if quantifier c then ReError
    else if Ascii.eqb c "{" then Unsupported
    else Done (Chr c, st, r)
  end.
End Parser.

Definition ends (s : string) : bool :=
  match s with EmptyString => true | String c _ => Ascii.eqb c "|" || Ascii.eqb c ")" end.
(** sre_parse._parse_sub and _parse: alternatives, and sequences of items. *)
Fixpoint parse_alt (fuel : nat) (st : pstate) (s : string) : parsed (re * pstate * string) :=
  match fuel with
  | 0 => OutOfFuel
  | S f =>
    pbind (parse_seq f st s) (fun x =>
    let '(r, st1, s1) := x in
    match s1 with
    | String c s2 =>
      if Ascii.eqb c "|" then
        pbind (parse_alt f st1 s2) (fun y => Done (Alt r (fst (fst y)), snd (fst y), snd y))
      else Done x
    | EmptyString => Done x
    end)
  end
with parse_seq (fuel : nat) (st : pstate) (s : string) : parsed (re * pstate * string) :=
  match fuel with
  | 0 => OutOfFuel
  | S f =>
    if ends s then Done (Eps, st, s) else
    pbind (parse_item (parse_alt f) st s) (fun x =>
    pbind (parse_repeat (fst (fst x)) (snd x)) (fun y =>
    pbind (parse_seq f (snd (fst x)) (snd y)) (fun z =>
    Done (Cat (fst y) (fst (fst z)), snd (fst z), snd z))))
  end.

(** re.compile *)
Definition compile (s : string) : parsed re :=
  pbind (parse_alt (3 * String.length s + 3) start s) (fun x =>
  match snd x with EmptyString => Done (fst (fst x)) | _ => ReError end).

(** ** Matcher *)
Definition caps := list (nat * (nat * nat)).
Fixpoint captured (n : nat) (c : caps) : option (nat * nat) :=
  match c with
  | [] => None
  | (k, p) :: r => if k =? n then Some p else captured n r
  end.
Definition in_range (c : ascii) (p : ascii * ascii) : bool := between (fst p) (snd p) c.
Definition in_item (c : ascii) (x : citem) : bool :=
  match x with Range lo hi => between lo hi c | Not l => negb (existsb (in_range c) l) end.
Definition newline : ascii := ascii_of_nat 10.
Definition word_at (s : string) (i : nat) : bool :=
  match get i s with Some c => is_word c | None => false end.
Definition at_boundary (s : string) (i : nat) : bool :=
  xorb (match i with 0 => false | S j => word_at s j end) (word_at s i).
Definition at_ok (s : string) (a : at_code) (i : nat) : bool :=
  match a with
  | AtBegin => i =? 0
  | AtEndString => i =? String.length s
  | AtEnd => (i =? String.length s)
             || ((i + 1 =? String.length s) && match get i s with Some c => Ascii.eqb c newline | None => false end)
  | AtBoundary => at_boundary s i
  | AtNonBoundary => negb (at_boundary s i)
  end.
(** A repetition of what [m] matches, at most [n] times.  Simplified: an iteration that matches the
    empty text is not made. *)
Fixpoint loop (m : nat -> caps -> list (nat * caps)) (greedy : bool) (n i : nat) (c : caps) : list (nat * caps) :=
  match n with
  | 0 => [(i, c)]
  | S n' =>
    let more := flat_map (fun x => if fst x =? i then [] else loop m greedy n' (fst x) (snd x)) (m i c) in
    if greedy then more ++ [(i, c)] else (i, c) :: more
  end.
(** All ends of matches of [r] in [s] that start at position [i], with the captures, in the order in
    which the backtracking matcher finds them. *)
Fixpoint matches (s : string) (r : re) (i : nat) (c : caps) {struct r} : list (nat * caps) :=
  match r with
  | Eps => [(i, c)]
  | Chr a => match get i s with Some b => if Ascii.eqb a b then [(S i, c)] else [] | None => [] end
  | Any => match get i s with Some b => if Ascii.eqb b newline then [] else [(S i, c)] | None => [] end
  | CSet neg l => match get i s with
                  | Some b => if xorb neg (existsb (in_item b) l) then [(S i, c)] else []
                  | None => [] end
  | At a => if at_ok s a i then [(i, c)] else []
  | Cat a b => flat_map (fun x => matches s b (fst x) (snd x)) (matches s a i c)
  | Alt a b => matches s a i c ++ matches s b i c
  | Opt greedy a => if greedy then matches s a i c ++ [(i, c)] else (i, c) :: matches s a i c
  | Star greedy a =>
    loop (matches s a) greedy (String.length s - i) i c
  | Plus greedy a =>
    flat_map (fun x => loop (matches s a) greedy (String.length s - fst x) (fst x) (snd x)) (matches s a i c)
  | Grp n _ a => map (fun x => (fst x, (n, (i, fst x)) :: snd x)) (matches s a i c)
  | Look positive a =>
    match matches s a i c with
    | [] => if positive then [] else [(i, c)]
    | x :: _ => if positive then [(i, snd x)] else []
    end
  | Ref n => match captured n c with
             | None => []
             | Some (b, e) => if String.eqb (substring b (e - b) s) (substring i (e - b) s) && (i + (e - b) <=? String.length s)
                              then [(i + (e - b), c)] else []
             end
  end.
(** Pattern.search(s) is not None *)
Definition search (r : re) (s : string) : bool :=
  existsb (fun i => match matches s r i [] with [] => false | _ => true end) (seq 0 (S (String.length s))).

(** ** The code *)
Local Open Scope string_scope.
(** The argument [regexes]: None, a string, or a sequence of strings. *)
Inductive regexes_arg := RNone | RStr (s : string) | RList (l : list string).
(** The result of the function, or of calling re.compile in it. *)
Inductive match_fn := NoFn | Fn (f : string -> bool) | Fails | Unknown.
Definition fn_of (x : parsed re) : match_fn :=
  match x with Done r => Fn (search r) | ReError => Fails | Unsupported => Unknown | OutOfFuel => Unknown end.

(** vmoe/utils.py:176-189 *)
Definition join_grouped (l : list string) : string :=
  String.concat "|" (map (fun r => "(?:" ++ r ++ ")") l).
Definition make_match_fn_from_regex_list (a : regexes_arg) : match_fn :=
  let go l := fn_of (compile ("(?:" ++ join_grouped l ++ ")")) in
  match a with
  | RNone => NoFn
  | RStr s => if String.eqb s "" then NoFn else go [s]
  | RList [] => NoFn
  | RList l => go l
  end.

(** vmoe/train/optimizer.py:144-163, the pattern of freeze_weights: a string is taken as it is; the
    parts of a sequence are joined without a group around them. *)
Definition freeze_pattern (a : regexes_arg) : match_fn :=
  match a with
  | RNone => NoFn
  | RStr s => if String.eqb s "" then NoFn else fn_of (compile s)
  | RList [] => NoFn
  | RList l => fn_of (compile (join_grouped l))
  end.
