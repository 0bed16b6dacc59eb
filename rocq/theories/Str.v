(** Strings as lists of Unicode scalar values, and the few [std] string
    operations the modelled code uses.  No proofs here (see StrFacts.v). *)
From Coq Require Export String Ascii.
From Coq Require Export List NArith Bool.
Export ListNotations.
Open Scope N_scope.
Open Scope list_scope.

(** A Rust [char]/[&str].  UTF-8 preserves code point order, so comparing
    lists of code points lexicographically is [Ord for str]. *)
Notation chr := N (only parsing).
Notation str := (list N) (only parsing).

(** ASCII literals. *)
Fixpoint lit (s : string) : str :=
  match s with
  | EmptyString => []
  | String a r => N_of_ascii a :: lit r
  end.
Notation "$ s" := (lit s%string) (at level 0, s at level 0, format "$ s").

Fixpoint str_eqb (a b : str) : bool :=
  match a, b with
  | [], [] => true
  | x :: a', y :: b' => N.eqb x y && str_eqb a' b'
  | _, _ => false
  end.

(** Lexicographic comparison, generic in the element comparison
    ([Ord] for slices, [Vec], [str]). *)
Fixpoint list_cmp {A} (c : A -> A -> comparison) (a b : list A) : comparison :=
  match a, b with
  | [], [] => Eq
  | [], _ :: _ => Lt
  | _ :: _, [] => Gt
  | x :: a', y :: b' =>
      match c x y with
      | Eq => list_cmp c a' b'
      | r => r
      end
  end.

(** [Ord for str]. *)
Definition str_cmp : str -> str -> comparison := list_cmp N.compare.

(** [Ord for Option<T>]: [None < Some]. *)
Definition opt_cmp {A} (c : A -> A -> comparison) (a b : option A) : comparison :=
  match a, b with
  | None, None => Eq
  | None, Some _ => Lt
  | Some _, None => Gt
  | Some x, Some y => c x y
  end.

(** [Ordering::then_with] / derived lexicographic comparison. *)
Definition then_cmp (a b : comparison) : comparison :=
  match a with Eq => b | r => r end.

(** [char] ranges. *)
Definition in_range (lo hi c : chr) : bool := N.leb lo c && N.leb c hi.

Definition is_digit (c : chr) : bool := in_range 48 57 c.
Definition is_upper (c : chr) : bool := in_range 65 90 c.
Definition is_lower (c : chr) : bool := in_range 97 122 c.
Definition is_alpha (c : chr) : bool := is_upper c || is_lower c.
Definition is_alnum (c : chr) : bool := is_alpha c || is_digit c.
Definition is_ascii (c : chr) : bool := N.ltb c 128.

(** [str::contains(char)] *)
Fixpoint contains_chr (c : chr) (s : str) : bool :=
  match s with
  | [] => false
  | x :: r => N.eqb x c || contains_chr c r
  end.

(** [str::starts_with(char)], [str::ends_with(char)] *)
Definition starts_with_chr (c : chr) (s : str) : bool :=
  match s with [] => false | x :: _ => N.eqb x c end.

Fixpoint ends_with_chr (c : chr) (s : str) : bool :=
  match s with
  | [] => false
  | [x] => N.eqb x c
  | _ :: r => ends_with_chr c r
  end.

(** [str::strip_suffix(char)] *)
Definition strip_suffix_chr (c : chr) (s : str) : option str :=
  if ends_with_chr c s then Some (removelast s) else None.

(** [str::strip_prefix(char)] *)
Definition strip_prefix_chr (c : chr) (s : str) : option str :=
  match s with
  | [] => None
  | x :: r => if N.eqb x c then Some r else None
  end.

(** [str::find(char)] followed by slicing: everything before the first
    occurrence, and everything after it. *)
Fixpoint split_first (c : chr) (s : str) : option (str * str) :=
  match s with
  | [] => None
  | x :: r =>
      if N.eqb x c then Some ([], r)
      else match split_first c r with
           | None => None
           | Some (a, b) => Some (x :: a, b)
           end
  end.

(** [str::split(char)]: always at least one piece. *)
Fixpoint split_on (p : chr -> bool) (s : str) : list str :=
  match s with
  | [] => [[]]
  | x :: r =>
      if p x then [] :: split_on p r
      else match split_on p r with
           | [] => [[x]]
           | w :: ws => (x :: w) :: ws
           end
  end.

(** [slice::join(sep)] *)
Fixpoint join (sep : str) (l : list str) : str :=
  match l with
  | [] => []
  | [w] => w
  | w :: r => w ++ sep ++ join sep r
  end.

Fixpoint starts_with (p s : str) : bool :=
  match p, s with
  | [], _ => true
  | x :: p', y :: s' => N.eqb x y && starts_with p' s'
  | _, [] => false
  end.

(** [str::strip_prefix(&str)] *)
Fixpoint strip_prefix (p s : str) : option str :=
  match p, s with
  | [], _ => Some s
  | x :: p', y :: s' => if N.eqb x y then strip_prefix p' s' else None
  | _, [] => None
  end.

(** Hexadecimal digits. *)
Definition hex_upper (d : N) : chr := if N.ltb d 10 then 48 + d else 55 + d.
Definition hex_lower (d : N) : chr := if N.ltb d 10 then 48 + d else 87 + d.
Definition hex_val (c : chr) : option N :=
  if is_digit c then Some (c - 48)
  else if in_range 65 70 c then Some (c - 55)
  else if in_range 97 102 c then Some (c - 87)
  else None.

(** UTF-8 encoding of one scalar value. *)
Definition utf8 (c : chr) : list N :=
  if N.ltb c 128 then [c]
  else if N.ltb c 2048 then [192 + c / 64; 128 + c mod 64]
  else if N.ltb c 65536 then [224 + c / 4096; 128 + (c / 64) mod 64; 128 + c mod 64]
  else [240 + c / 262144; 128 + (c / 4096) mod 64; 128 + (c / 64) mod 64; 128 + c mod 64].

(** Percent-encoding of one byte: upper-case hex ([percent_encoding] crate). *)
Definition pct_byte (b : N) : str := [37; hex_upper (b / 16); hex_upper (b mod 16)].

(** [utf8_percent_encode]: bytes outside ASCII are always encoded; ASCII
    characters are encoded when in the given set. *)
Definition pct_chr (enc : chr -> bool) (c : chr) : str :=
  if is_ascii c && negb (enc c) then [c] else flat_map pct_byte (utf8 c).
Definition pct_encode (enc : chr -> bool) (s : str) : str := flat_map (pct_chr enc) s.

(** Unicode scalar values (the values of Rust's [char]). *)
Definition is_scalar (c : chr) : bool := N.ltb c 55296 || in_range 57344 1114111 c.

(** [Result], and the outcome of a function that may panic. *)
Inductive result (A E : Type) : Type :=
| Ok (a : A)
| Err (e : E).
Arguments Ok {A E} a.
Arguments Err {A E} e.

Inductive outcome (A : Type) : Type :=
| Ret (a : A)
| Panic.
Arguments Ret {A} a.
Arguments Panic {A}.

Definition is_ok {A E} (r : result A E) : bool :=
  match r with Ok _ => true | Err _ => false end.
