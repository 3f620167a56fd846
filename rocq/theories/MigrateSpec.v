(** What C49, C50 and C74 mean: chain extensions, derived SCALE traits and events after the migration to ink! 5. *)
From Verif Require Import Base PositionModel TranslateModel SyntaxModel AttrModel ArgEditModel ArgEditSpec EditSpec UtilSpec MigrateModel.

(** ** C49 *)
(** A chain extension that has no id, and whose ink! attribute is closed: [p] is the place for an argument. *)
Definition needs_id (toks : list leaf) (c : chain_ext) (p : insertion) : Prop :=
  ce_arg c = false /\ exists rb tree, ce_attr c = Some (rb, tree) /\ arg_insert_place toks rb tree true = Some p.
(** What one chain extension gets: the id [id], if any, and [function] for the names of its functions' arguments. *)
Definition migrated (toks : list leaf) (c : chain_ext) (id : option N) (edits : list text_edit) : Prop :=
  exists renames,
    edits = match id with
            | Some n => match ce_attr c with
                        | Some (rb, tree) => match arg_insert_place toks rb tree true with
                                             | Some p => [insert_edit p (lit "extension = " ++ dec n)]
                                             | None => []
                                             end
                        | None => []
                        end
            | None => []
            end ++ renames
    /\ (is_some id = true <-> exists p, needs_id toks c p)
    /\ Forall2 (fun r e => te_range e = r /\ te_text e = lit "function" /\ te_snippet e = None)
         (filter_map (fun r => r) (ce_functions c)) renames.

(** ** C50 *)
(** The item an attribute belongs to, by its offset: attributes of one item have the same owner. An attribute on
    its own is its own owner. *)
Definition owner (a : mig_attr) : nat := match ma_item a with Some o => o | None => fst (ma_range a) end.
Definition white (c : char) : bool := N.eqb c 32 || N.eqb c 10 || N.eqb c 9 || N.eqb c 13.
Definition squeeze (s : str) : str := filter (fun c => negb (white c)) s.
(** Texts separated by commas. *)
Fixpoint comma_list (ps : list str) : str :=
  match ps with [] => [] | [p] => p | p :: ps' => p ++ lit "," ++ comma_list ps' end.
Definition nonempty_str (s : str) : bool := match s with [] => false | _ => true end.
(** The names listed in [s]: the texts between the commas, without white space; empty ones do not count. *)
Definition lists_names (s : str) (ns : list str) : Prop :=
  exists ps, ps <> [] /\ s = comma_list ps /\ (forall p, In p ps -> ~ In 44%N p)
    /\ ns = filter nonempty_str (map squeeze ps).
(** Naming a SCALE trait does not depend on white space, and needs a name. *)
Definition by_name (scale : str -> option arg_kind) : Prop :=
  (forall s, scale s = scale (squeeze s)) /\ scale [] = None.
Definition not_scale (scale : str -> option arg_kind) (n : str) : bool := negb (is_some (scale n)).
(** [derive(..)] in the argument list of a [cfg_attr]. *)
Definition derive_core (bl body : list elem) : list elem := Tok IDENT (lit "derive") :: bl ++ [paren_tree body].
(** No [derive(..)] among the elements. *)
Definition no_derive (l : list elem) : Prop :=
  forall a k bl cs b, blank bl -> l <> a ++ Tok k (lit "derive") :: bl ++ Node TOKEN_TREE cs :: b.

(** ** C74 *)
(** [pat] occurs in [a ++ pat ++ b] only there. *)
Definition only_occurrence (pat a b : str) : Prop := forall x y, a ++ pat ++ b = x ++ pat ++ y -> x = a.
(** The lines [ls], with the indentation [own] replaced by [target]. *)
Definition relocated (own target : str) (ls ls' : list str) : Prop :=
  Forall2 (fun l l' => exists m, dedented own l m /\ indented target m l') ls ls'.
Definition or_empty (s : option str) : str := match s with Some s => s | None => [] end.
(** The attribute of an event in ink! 5. *)
Definition event_attr (anonymous : bool) : str := lit "#[ink::event" ++ (if anonymous then lit "(anonymous)" else []) ++ lit "]".
