(** Model of the edits of a migration as a whole: crates/analyzer/src/analysis/migrate.rs L18-40 [migrate] and
    migrate/e2e_test.rs L17-35 [migrate]; the parts are in [MigrateModel], [HostModel], [ArgEditModel], [E2EModel] and [ImportModel]. *)
From Verif Require Import Base Unicode PositionModel TranslateModel SyntaxModel AttrModel EditModel ArgEditModel TravModel E2EModel ImportModel.

(** An e2e test: its ink! attribute (given that it has its arguments in it), the ranges of its parameters and of its name, its body,
    what is around it, the place in its body, and the result of [parent_ast_item] for it. *)
Record e2e_test := E2ETest {
  et_attr : option ink_attr; et_params : option trange; et_name : option trange; et_body : option ltree;
  et_around : around; et_inside : option (nat * str); et_parent : option lelem }.

Section Migration.
  (** [zero] and [rs] as in [E2EModel] *)
  Context (zero : str -> bool) (rs : resolver).
  (** e2e_test.rs L23-33 *)
  Definition e2e_test_edits (toks : list leaf) (root : lelem) (t : e2e_test) : outcome (list text_edit) :=
    obind_o (match et_attr t with Some a => migrate_e2e_attribute toks a | None => Done [] end) (fun attr =>
    obind_o (deprecated_imports toks (et_parent t) root) (fun imports =>
    Done (attr
          ++ fn_sig (et_params t) (et_name t)
          ++ match et_body t with Some b => e2e_body zero rs b (et_around t) (et_inside t) | None => [] end
          ++ imports))).
  (** e2e_test.rs L17-35: the tests of the file and of its contracts *)
  Definition e2e_edits (toks : list leaf) (root : lelem) (ts : list e2e_test) : outcome (list text_edit) :=
    obind_o (all_done (map (e2e_test_edits toks root) ts)) (fun l => Done (concat l)).
End Migration.

(** itertools [unique] *)
Definition unique_edits (es : list text_edit) : list text_edit := unique_by edit_eqb (fun e => e) es.
(** migrate.rs L18-40: the edits of the five parts, each once, formatted *)
Definition migrate_file (U : unicode) (more : nat -> bool) (root : elem) (events extensions derives hosts e2e : list text_edit) : outcome (list text_edit) :=
  format_edits U (tokens_of more 0 None None root) (len_of root) (unique_edits (events ++ extensions ++ derives ++ hosts ++ e2e)).
