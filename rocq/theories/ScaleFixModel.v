(** Model of the check that a type implements the SCALE codec traits:
    crates/analyzer/src/analysis/diagnostics/common.rs L1965-2248 [ensure_impl_scale_codec_traits]. *)
From Verif Require Import Base Unicode PositionModel TranslateModel SyntaxModel AttrModel EditModel VersionModel CommandModel UtilModel ArgEditModel FlattenModel MigrateModel.

(** An attribute ([ast::Attr]): the text of its path, its token tree and its range. *)
Record item_attr := ItemAttr { ia_path : option str; ia_tree : option lelem; ia_range : trange }.
(** A struct, enum or union: its start, its attributes, the ink! attributes among them, and as parameters whether
    a text names a trait ([path_from_str] and [resolution::is_external_crate_item], L2071-2080) and whether the file
    has an implementation of the trait ([resolution::external_trait_impl_by_name], L2082-2096). *)
Record adt := Adt {
  ad_start : nat; ad_attrs : list item_attr; ad_ink : list ink_attr; ad_name : option str; ad_declaration : trange;
  ad_named : str -> arg_kind -> bool; ad_implemented : arg_kind -> bool }.

Definition attr_path_is (s : str) (x : item_attr) : bool := match ia_path x with Some p => str_eqb p s | None => false end.
(** L1974-1979: only for ink! 5 *)
Definition scale_derive_attr_of (v : version) (a : adt) : option ink_attr :=
  match v with
  | V5 => find (fun x => attr_kind_eqb (at_kind x) (AkMacro MScaleDerive)) (ad_ink a)
  | V4 => None
  end.
(** L1981-1984 *)
Definition derive_attr_of (a : adt) : option item_attr := find (attr_path_is (lit "derive")) (ad_attrs a).
(** L1995-1999 *)
Definition derive_meta_of (a : adt) : option str := option_map meta_string (obind (derive_attr_of a) ia_tree).
(** L1987-1992: the names of a list. Those that are no paths ([path_from_str]) name nothing. *)
Definition meta_names (s : str) : list str := split_char c_comma (filter (fun c => negb (N.eqb c c_space)) s).
(** L2010-2033: the token trees after a [derive] *)
Fixpoint derive_children (prev : option leaf) (l : list lelem) : list lelem :=
  match l with
  | [] => []
  | e :: l' =>
      let go := derive_children (oor (last_solid e) prev) l' in
      match snd e, prev with
      | Node TOKEN_TREE _, Some t => if str_eqb (snd (snd t)) (lit "derive") then e :: go else go
      | _, _ => go
      end
  end.
(** L2001-2052: the derived names; of conditional ones, those of the first [cfg_attr] *)
Definition derived_names (a : adt) : list str :=
  match derive_meta_of a with Some m => meta_names m | None => [] end
  ++ match find_map (fun x => if attr_path_is (lit "cfg_attr") x then ia_tree x else None) (ad_attrs a) with
     | Some t => flat_map (fun d => meta_names (meta_string d)) (derive_children None (children_at t))
     | None => []
     end.

(** L2055-2072: the traits, with the paths used for ink! 4 *)
Definition scale_traits : list arg_kind := [AEncode; ADecode; ATypeInfo].
Definition trait_path (k : arg_kind) : str :=
  match k with ADecode => lit "scale::Decode" | ATypeInfo => lit "scale_info::TypeInfo" | _ => lit "scale::Encode" end.
(** L2053-2106 *)
Definition missing_traits (v : version) (a : adt) : list arg_kind :=
  filter (fun k =>
    negb (match scale_derive_attr_of v a with
          | Some x => existsb (fun arg => arg_kind_eqb (ia_kind arg) k) (at_args x)
          | None => false
          end)
    && negb (existsb (fun n => ad_named a n k) (derived_names a))
    && negb (ad_implemented a k)) scale_traits.

(** L2111-2142 *)
Definition trait_text (v : version) (k : arg_kind) : str := match v with V5 => arg_kind_str k | V4 => trait_path k end.
Fixpoint numbered (i : N) (l : list str) : list str :=
  match l with [] => [] | x :: l' => (lit "${" ++ dec i ++ lit ":" ++ x ++ lit "}") :: numbered (i + 1)%N l' end.
Definition plain_traits (v : version) (ks : list arg_kind) : str := join (lit ", ") (map (trait_text v) ks).
Definition snippet_traits (v : version) (ks : list arg_kind) : str := join (lit ", ") (numbered 1 (map (trait_text v) ks)).
Definition shown_traits (ks : list arg_kind) : str := join (lit ", ") (map (fun k => lit "`" ++ trait_path k ++ lit "`") ks).
(** [str::trim_end] *)
Fixpoint trim_start (U : unicode) (s : str) : str :=
  match s with c :: s' => if u_whitespace U c then trim_start U s' else s | [] => [] end.
Definition trim_end (U : unicode) (s : str) : str := rev (trim_start U (rev s)).
(** L2158-2173 *)
Definition meta_prefix (U : unicode) (m : str) : str := m ++ if ends_with (lit ",") (trim_end U m) then [] else lit ", ".
(** L2184-2206: where a new attribute goes. [toks]: the tokens of the file. *)
Definition new_attr_offset (toks : list leaf) (a : adt) : nat :=
  match last_opt (ad_attrs a) with
  | Some x =>
      match find (fun t => negb (is_trivia (lf_kind t))) (filter (fun t => snd (ia_range x) <=? lf_start t) toks) with
      | Some t => lf_start t
      | None => ad_start a
      end
  | None => ad_start a
  end.
(** L2144-2206: the edit *)
Definition scale_fix (U : unicode) (toks : list leaf) (v : version) (a : adt) (ks : list arg_kind) : text_edit :=
  let path := match v with V5 => lit "ink::scale_derive" | V4 => lit "derive" end in
  let attr := fun pre traits => lit "#[" ++ path ++ lit "(" ++ pre ++ traits ++ lit ")]" in
  let pre := match v with
             | V4 => match derive_meta_of a with Some m => meta_prefix U m | None => [] end
             | V5 => []
             end in
  match (match v with V5 => option_map (fun x => as_range (at_syntax x)) (scale_derive_attr_of v a) | V4 => option_map ia_range (derive_attr_of a) end) with
  | Some r => edit_replace_snippet (attr pre (plain_traits v ks)) r (Some (attr pre (snippet_traits v ks)))
  | None => let o := new_attr_offset toks a in
            edit_replace_snippet (attr [] (plain_traits v ks)) (o, o) (Some (attr [] (snippet_traits v ks)))
  end.
(** L2108-2248: message, range, label and edit of the diagnostic *)
Definition plural (ks : list arg_kind) : str := match ks with [_] => [] | _ => lit "s" end.
Definition scale_diagnostic (U : unicode) (toks : list leaf) (v : version) (message_prefix : str) (a : adt)
  : option (str * (trange * (str * text_edit))) :=
  match missing_traits v a with
  | [] => None
  | ks => Some (message_prefix ++ lit " must implement the " ++ shown_traits ks ++ lit " trait" ++ plural ks ++ lit ".",
           (ad_declaration a,
            (lit "Derive " ++ shown_traits ks ++ lit " trait implementation" ++ plural ks
             ++ match ad_name a with Some n => lit " for `" ++ n ++ lit "`" | None => [] end ++ lit ".",
             scale_fix U toks v a ks)))
  end.
