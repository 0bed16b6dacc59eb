(** Model of the part of the external [url] crate (2.5) that rdftk_iri uses:
    components, serialisation, [set_fragment], [set_path], [path_segments], [join] with an
    absolute path.  Written from the WHATWG URL rules the crate implements.

    Simplifications, all recorded in DESIGN.md: the authority (user info, host, port) is one
    opaque string; scheme ["file"] (drive letters) is excluded by [wf_url]; [Url::parse] is not
    modelled (theorems quantify over any parser that inverts serialisation). *)
From Verif Require Import Str.

Record url := MkUrl {
  u_scheme : str;
  u_auth : option str;      (* text after "//", before the path *)
  u_path : str;
  u_query : option str;
  u_frag : option str
}.

Definition opt_pre (c : str) (o : option str) : str :=
  match o with None => [] | Some s => c ++ s end.

(** [Url::as_str]: scheme ":" ["//" authority] path ["?" query] ["#" fragment] *)
Definition url_ser (u : url) : str :=
  u_scheme u ++ $":" ++ opt_pre $"//" (u_auth u) ++ u_path u
  ++ opt_pre $"?" (u_query u) ++ opt_pre $"#" (u_frag u).

(** [SchemeType::is_special] *)
Definition is_special (scheme : str) : bool :=
  existsb (str_eqb scheme) [$"http"; $"https"; $"ws"; $"wss"; $"ftp"; $"file"].

(** [Url::cannot_be_a_base]: what follows "scheme:" does not start with '/'. *)
Definition cannot_be_a_base (u : url) : bool :=
  match u_auth u with
  | Some _ => false
  | None => negb (starts_with_chr 47 (u_path u))
  end.

(** Percent-encode sets of url::parser: CONTROLS, FRAGMENT, PATH. *)
Definition enc_controls (c : chr) : bool := N.ltb c 32 || N.eqb c 127.
Definition enc_fragment (c : chr) : bool :=
  enc_controls c || existsb (N.eqb c) [32; 34; 60; 62; 96].
Definition enc_path (c : chr) : bool :=
  enc_fragment c || existsb (N.eqb c) [35; 63; 123; 125].

(** [parser::Input] skips ASCII tab, LF, CR. *)
Definition skip_tabs (s : str) : str :=
  filter (fun c => negb (existsb (N.eqb c) [9; 10; 13])) s.

(** Dot segments, also in percent-encoded spelling. *)
Definition lower (c : chr) : chr := if is_upper c then c + 32 else c.
Definition is_single_dot (w : str) : bool :=
  existsb (str_eqb (map lower w)) [$"."; $"%2e"].
Definition is_double_dot (w : str) : bool :=
  existsb (str_eqb (map lower w)) [$".."; $".%2e"; $"%2e."; $"%2e%2e"].

(** Path state of the URL parser on the list of segments; [acc] is reversed. *)
Fixpoint norm_segs (acc : list str) (segs : list str) : list str :=
  match segs with
  | [] => rev acc
  | w :: r =>
      match r with
      | [] => if is_double_dot w then rev ([] :: tl acc)
              else if is_single_dot w then rev ([] :: acc)
              else rev (w :: acc)
      | _ => if is_double_dot w then norm_segs (tl acc) r
             else if is_single_dot w then norm_segs acc r
             else norm_segs (w :: acc) r
      end
  end.

Definition is_slash (special : bool) (c : chr) : bool :=
  N.eqb c 47 || (special && N.eqb c 92).

(** [parse_path_start] + [parse_path] in setter context, for a URL that can be a base. *)
Definition parse_path (special : bool) (input : str) : str :=
  let p := skip_tabs input in
  match p with
  | [] => if special then $"/" else []
  | c :: r =>
      if negb special && (N.eqb c 63 || N.eqb c 35) then []
      else
        let body := if is_slash special c then r else p in
        $"/" ++ join $"/" (norm_segs [] (map (pct_encode enc_path) (split_on (is_slash special) body)))
  end.

(** [parse_cannot_be_a_base_path] in setter context. *)
Definition parse_opaque_path (input : str) : str :=
  match input with
  | 47 :: r => $"%2F" ++ pct_encode enc_controls (skip_tabs r)
  | _ => pct_encode enc_controls (skip_tabs input)
  end.

(** [Url::set_path] *)
Definition url_set_path (u : url) (p : str) : url :=
  MkUrl (u_scheme u) (u_auth u)
        (if cannot_be_a_base u then parse_opaque_path p else parse_path (is_special (u_scheme u)) p)
        (u_query u) (u_frag u).

(** [Url::set_fragment(Some(f))] *)
Definition url_set_fragment (u : url) (f : str) : url :=
  MkUrl (u_scheme u) (u_auth u) (u_path u) (u_query u)
        (Some (pct_encode enc_fragment (skip_tabs f))).

Fixpoint strip_trailing_spaces (s : str) : str :=
  match s with
  | [] => []
  | c :: r => match strip_trailing_spaces r with
              | [] => if N.eqb c 32 then [] else [c]
              | r' => c :: r'
              end
  end.

(** [Url::set_fragment(None)], including [strip_trailing_spaces_from_opaque_path]. *)
Definition url_clear_fragment (u : url) : url :=
  MkUrl (u_scheme u) (u_auth u)
        (if cannot_be_a_base u && (match u_query u with None => true | Some _ => false end)
         then strip_trailing_spaces (u_path u) else u_path u)
        (u_query u) None.

(** [Url::path_segments] *)
Definition url_path_segments (u : url) : option (list str) :=
  match strip_prefix_chr 47 (u_path u) with
  | None => None
  | Some r => Some (split_on (N.eqb 47) r)
  end.

(** [Url::join] with a reference that is an absolute path made of unreserved characters
    (the only use, in [Iri::genid]): keeps scheme and authority. [None]: error
    RelativeUrlWithCannotBeABaseBase. *)
Definition url_join_abs_path (u : url) (p : str) : option url :=
  if cannot_be_a_base u then None
  else Some (MkUrl (u_scheme u) (u_auth u) (parse_path (is_special (u_scheme u)) p) None None).

(** ** Well-formed (normalised) URLs: the values [Url::parse] can return. *)

Definition scheme_char (c : chr) : bool :=
  is_lower c || is_digit c || existsb (N.eqb c) [43; 45; 46].
Definition wf_scheme (s : str) : bool :=
  match s with
  | [] => false
  | c :: r => is_lower c && forallb scheme_char r && negb (str_eqb s $"file")
  end.

Definition printable (c : chr) : bool := in_range 33 126 c.
Definition auth_char (c : chr) : bool := printable c && negb (existsb (N.eqb c) [47; 63; 35; 92; 60; 62]).
Definition path_char (special : bool) (c : chr) : bool :=
  printable c && negb (enc_path c) && negb (N.eqb c 94) && negb (special && N.eqb c 92).
Definition query_char (c : chr) : bool := printable c && negb (existsb (N.eqb c) [34; 35; 60; 62]).
Definition frag_char (c : chr) : bool := printable c && negb (enc_fragment c).
Definition opaque_char (c : chr) : bool := in_range 32 126 c && negb (existsb (N.eqb c) [63; 35]).

Definition seg_ok (special : bool) (w : str) : bool :=
  forallb (path_char special) w && negb (is_single_dot w) && negb (is_double_dot w).

(** A normalised hierarchical path. *)
Definition wf_hpath (special : bool) (p : str) : bool :=
  match strip_prefix_chr 47 p with
  | None => false
  | Some r => forallb (seg_ok special) (split_on (N.eqb 47) r)
  end.

Definition opt_all (f : chr -> bool) (o : option str) : bool :=
  match o with None => true | Some s => forallb f s end.

Definition wf_url (u : url) : bool :=
  wf_scheme (u_scheme u)
  && opt_all query_char (u_query u) && opt_all frag_char (u_frag u)
  && match u_auth u with
     | Some a => forallb auth_char a
                 && (wf_hpath (is_special (u_scheme u)) (u_path u)
                     || (negb (is_special (u_scheme u)) && str_eqb (u_path u) []))
     | None => negb (is_special (u_scheme u))
               && if starts_with_chr 47 (u_path u)
                  then wf_hpath false (u_path u) && negb (starts_with $"//" (u_path u))
                  else forallb opaque_char (u_path u)
     end.

(** A concrete parser for serialised well-formed URLs; only used to show that the
    assumption made about [Url::parse] can be met. *)
Definition url_reparse (s : str) : option url :=
  match split_first 58 s with
  | None => None
  | Some (sch, r0) =>
      let '(r1, fr) := match split_first 35 r0 with None => (r0, None) | Some (a, b) => (a, Some b) end in
      let '(r2, q) := match split_first 63 r1 with None => (r1, None) | Some (a, b) => (a, Some b) end in
      match strip_prefix $"//" r2 with
      | None => Some (MkUrl sch None r2 q fr)
      | Some r3 =>
          match split_first 47 r3 with
          | None => Some (MkUrl sch (Some r3) [] q fr)
          | Some (a, p) => Some (MkUrl sch (Some a) (47 :: p) q fr)
          end
      end
  end.
