(** Vocabulary for the statements about migrated manifests, after Cargo's reference ("Features"): what a feature refers to. *)
From Verif Require Import Base VersionModel CommandSpec.

(** A value of a feature that refers to the dependency [name]: [name/feature], [name?/feature], [dep:name], or, for an optional dependency, [name]. *)
Definition refers_to (name s : str) : Prop :=
  (exists f, s = name ++ lit "/" ++ f) \/ (exists f, s = name ++ lit "?/" ++ f) \/ s = lit "dep:" ++ name \/ s = name.
(** The value [s] is listed for the feature [f]. *)
Definition lists (doc : list (str * toml)) (f s : str) : Prop :=
  exists l, value_at doc (lit "features") f = Some (TArr l) /\ In (TStr s) l.
(** Every value of a feature that refers to the dependency [name] has that dependency to refer to. *)
Definition well_founded_features (doc : list (str * toml)) (name : str) : Prop :=
  (exists f s, lists doc f s /\ refers_to name s) -> exists v, value_at doc (lit "dependencies") name = Some v.
(** The only values that refer to [name] are [name/std] for the feature [std]. *)
Definition only_std (doc : list (str * toml)) (name : str) : Prop :=
  forall f s, lists doc f s -> refers_to name s -> f = lit "std" /\ s = name ++ lit "/std".
