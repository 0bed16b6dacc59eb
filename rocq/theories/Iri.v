(** Model of rdftk_iri/src/iri.rs.  [Iri] is a newtype of [url::Url]; equality, order and
    hash of [url::Url] are those of the serialisation. *)
From Verif Require Import Str PName Url.

Definition iri := url.

(** iri.rs:51-56 [enum IriRef] *)
Inductive iri_ref :=
| RIri (i : iri)
| RPrefixed (p : prefixed_name).

(** iri.rs:62-72 [Display for Iri]; [alternate] is the [{:#}] flag. *)
Definition iri_display (alternate : bool) (i : iri) : str :=
  if alternate then url_ser i else $"<" ++ url_ser i ++ $">".

(** iri.rs:74-86 [FromStr for Iri]; [parse] stands for [url::Url::from_str]. The two
    [unwrap]s follow tests for the same characters on a string of at least two characters,
    so they cannot fail. *)
Definition iri_from_str (parse : str -> option url) (s : str) : option iri :=
  parse (if starts_with_chr 60 s && ends_with_chr 62 s
         then match strip_prefix_chr 60 s with
              | None => s
              | Some r => match strip_suffix_chr 62 r with None => r | Some q => q end
              end
         else s).

(** [PartialEq], [Ord] derived on [url::Url]: both compare the serialisation. *)
Definition iri_eqb (a b : iri) : bool := str_eqb (url_ser a) (url_ser b).
Definition iri_cmp (a b : iri) : comparison := str_cmp (url_ser a) (url_ser b).

(** iri.rs:156-163, 185-192, 215-217, 239-243 *)
Definition with_new_path (i : iri) (p : str) : iri := url_set_path i p.
Definition with_new_fragment (i : iri) (f : str) : iri := url_set_fragment i f.
Definition with_empty_fragment (i : iri) : iri := with_new_fragment i [].
Definition with_no_fragment (i : iri) : iri := url_clear_fragment i.

Definition is_none {A} (o : option A) : bool := match o with None => true | Some _ => false end.

(** iri.rs:272-274 [looks_like_namespace] *)
Definition looks_like_namespace (i : iri) : bool :=
  (match u_frag i with Some [] => true | _ => false end)
  || (ends_with_chr 47 (u_path i) && is_none (u_query i)).

(** iri.rs:310-334 [split]. [path_segments().unwrap()] panics on a path that does not start
    with '/'; [.last().unwrap()] cannot fail because [str::split] yields at least one piece. *)
Definition split (i : iri) : outcome (option (iri * name)) :=
  match u_frag i with
  | Some (c :: f) =>
      match name_from_str (c :: f) with
      | Ok n => Ret (Some (with_empty_fragment i, n))
      | Err _ => Ret None
      end
  | _ =>
      match u_path i with
      | [] => Ret None
      | _ =>
        if negb (ends_with_chr 47 (u_path i)) && is_none (u_query i) then
          match url_path_segments i with
          | None => Panic
          | Some segs =>
              match name_from_str (last segs []) with
              | Ok n =>
                  let path := firstn (length (u_path i) - length (name_text n)) (u_path i) in
                  Ret (Some (with_new_path i path, n))
              | Err _ => Ret None
              end
          end
        else Ret None
      end
  end.

Definition outcome_map {A B} (f : A -> B) (o : outcome A) : outcome B :=
  match o with Ret a => Ret (f a) | Panic => Panic end.

(** iri.rs:364-369 [namespace], iri.rs:399-404 [name] *)
Definition iri_namespace (i : iri) : outcome (option iri) := outcome_map (option_map fst) (split i).
Definition iri_name (i : iri) : outcome (option name) := outcome_map (option_map snd) (split i).

(** iri.rs:434-445 [make_name] *)
Definition make_name (i : iri) (n : name) : option iri :=
  match u_frag i with
  | Some _ => Some (with_new_fragment i (name_text n))
  | None =>
      if ends_with_chr 47 (u_path i) && is_none (u_query i)
      then Some (with_new_path i (u_path i ++ name_text n))
      else None
  end.

(** iri.rs:470-482 [genid]; the random UUID in simple lower-case form is an argument. *)
Definition genid (i : iri) (uuid : str) : option iri :=
  url_join_abs_path i ($"/.well-known/genid/" ++ uuid).

(** iri.rs:489-496 [Display for IriRef] *)
Definition iri_ref_display (alternate : bool) (r : iri_ref) : str :=
  match r with
  | RIri i => iri_display alternate i
  | RPrefixed p => prefixed_name_display p
  end.
