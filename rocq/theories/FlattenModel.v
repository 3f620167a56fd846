(** Model of the action that flattens ink! attributes: crates/analyzer/src/analysis/actions/item.rs L665-706. *)
From Verif Require Import Base PositionModel TranslateModel SyntaxModel AttrModel EditModel.

(** [Itertools::join] *)
Fixpoint join (sep : str) (l : list str) : str :=
  match l with [] => [] | [s] => s | s :: l' => s ++ sep ++ join sep l' end.

(** item.rs L679-682 *)
Definition flat_path (k : attr_kind) : str :=
  match k with AkMacro m => macro_path_str m | AkArg _ => lit "ink" end.
(** item.rs L671 *)
Definition is_arg_attr (a : ink_attr) : bool := match at_kind a with AkArg _ => true | AkMacro _ => false end.
(** item.rs L676-696: the text of the new attribute. *)
Definition flat_text (p : ink_attr) (others : list ink_attr) : str :=
  lit "#[" ++ flat_path (at_kind p) ++ lit "("
  ++ join (lit ", ")
       (map meta_str (stable_sort (fun x => arg_rank (ia_kind x)) (at_args p ++ flat_map at_args others)))
  ++ lit ")]".
(** item.rs L666-706 [flatten_attrs]: the edits of the action, if there is one. *)
Definition flatten_attrs (attrs : list ink_attr) : option (list text_edit) :=
  match stable_sort (fun a => attr_rank (at_kind a)) attrs with
  | [] => None
  | p :: rest =>
      match filter is_arg_attr rest with
      | [] => None
      | others => Some (edit_replace (flat_text p others) (at_range p)
                        :: map (fun a => edit_delete (at_range a)) others)
      end
  end.
