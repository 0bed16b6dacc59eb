(** Model of the [Serialize] and [Deserialize] of rdftk_iri, which are derived
    (feature "serde", on by default: rdftk_iri/Cargo.toml:22,38), as used with [serde_json].
    The trees are those of the JSON text, so a key may occur twice in an object.  What the derive
    macros expand to is taken from the documentation of serde: a struct with one unnamed field
    is that field; a struct with named fields is an object, in which other keys are ignored, or
    an array of the fields; a variant with one field is an object with the name of the variant
    as its only key.  [None] stands for an error; which one is not kept. *)
From Verif Require Import Str PName Url Iri AMap PrefixMap.
From Verif Require Json.
Import Json(json(..)).

(** serde: [Deserialize for String]. *)
Definition de_string (v : json) : option str := match v with JString s => Some s | _ => None end.

(** pname.rs:99-101 [Namespace], 146-148 [Name]. *)
Definition ser_namespace (n : namespace) : json := JString (ns_text n).
Definition de_namespace (v : json) : option namespace := option_map MkNamespace (de_string v).
Definition ser_name (n : name) : json := JString (name_text n).
Definition de_name (v : json) : option name := option_map MkName (de_string v).

(** One of the named fields: [Some (Some v)] for the only value, [Some None] if there is none,
    [None] (an error, duplicate field) if there are several. *)
Fixpoint field (k : str) (m : list (str * json)) : option (option json) :=
  match m with
  | [] => Some None
  | (k', v) :: r =>
      match field k r with
      | None => None
      | Some x => if str_eqb k' k then match x with None => Some (Some v) | Some _ => None end else Some x
      end
  end.
(** A missing field is an error too. *)
Definition required {A} (de : json -> option A) (k : str) (m : list (str * json)) : option A :=
  match field k m with Some (Some v) => de v | _ => None end.

(** pname.rs:184-189 [LocalName]. *)
Definition ser_local_name (l : local_name) : json :=
  JObject [($"namespace", ser_namespace (ln_namespace l)); ($"name", ser_name (ln_name l))].
Definition both {A B} (a : option A) (b : option B) : option (A * B) :=
  match a, b with Some x, Some y => Some (x, y) | _, _ => None end.
Definition de_local_name (v : json) : option local_name :=
  option_map (fun x => MkLocalName (fst x) (snd x))
    match v with
    | JObject m => both (required de_namespace $"namespace" m) (required de_name $"name" m)
    | JArray [a; b] => both (de_namespace a) (de_name b)
    | _ => None
    end.

(** pname.rs:49-57 [PrefixedName]. *)
Definition ser_prefixed_name (p : prefixed_name) : json :=
  match p with
  | PNamespace n => JObject [($"Namespace", ser_namespace n)]
  | PLocal l => JObject [($"Local", ser_local_name l)]
  end.
Definition de_prefixed_name (v : json) : option prefixed_name :=
  match v with
  | JObject [(k, x)] =>
      if str_eqb k $"Namespace" then option_map PNamespace (de_namespace x)
      else if str_eqb k $"Local" then option_map PLocal (de_local_name x)
      else None
  | _ => None
  end.

Section Serde.
(** [Url::parse]. *)
Variable parse : str -> option url.

(** iri.rs:28-30 [Iri]; url: [Serialize for Url] and [Deserialize for Url], the text and its
    parse. *)
Definition ser_iri (i : iri) : json := JString (url_ser i).
Definition de_iri (v : json) : option iri := match de_string v with Some s => parse s | None => None end.

(** iri.rs:48-56 [IriRef]. *)
Definition ser_iri_ref (r : iri_ref) : json :=
  match r with
  | RIri i => JObject [($"Iri", ser_iri i)]
  | RPrefixed p => JObject [($"PrefixedName", ser_prefixed_name p)]
  end.
Definition de_iri_ref (v : json) : option iri_ref :=
  match v with
  | JObject [(k, x)] =>
      if str_eqb k $"Iri" then option_map RIri (de_iri x)
      else if str_eqb k $"PrefixedName" then option_map RPrefixed (de_prefixed_name x)
      else None
  | _ => None
  end.

(** map.rs:43-47 [IriPrefixMap]; bimap 0.6 src/serde.rs: [BiBTreeMap] is written as a map from
    left to right and read by inserting one pair after the other. *)
Definition ser_prefix_map (m : prefix_map) : json :=
  JObject [($"map", JObject (map (fun pi => (ns_text (fst pi), ser_iri (snd pi))) (pm_mappings m)))].
Fixpoint de_pairs (m : outcome prefix_map) (l : list (str * json)) : outcome (option prefix_map) :=
  match m with
  | Panic => Panic
  | Ret pm =>
      match l with
      | [] => Ret (Some pm)
      | (k, v) :: r => match de_iri v with None => Ret None | Some i => de_pairs (pm_insert pm (MkNamespace k) i) r end
      end
  end.
Definition de_bimap (v : json) : outcome (option prefix_map) :=
  match v with JObject l => de_pairs (Ret pm_empty) l | _ => Ret None end.
Definition de_prefix_map (v : json) : outcome (option prefix_map) :=
  match v with
  | JObject m => match field $"map" m with Some (Some x) => de_bimap x | _ => Ret None end
  | JArray [x] => de_bimap x
  | _ => Ret None
  end.
End Serde.
