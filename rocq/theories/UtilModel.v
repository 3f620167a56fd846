(** Model of the pure text helpers of crates/analyzer/src/analysis/utils.rs, of crates/analyzer/src/utils.rs,
    of crates/analyzer/src/codegen.rs and of the identifier rule of analysis/diagnostics/common.rs. *)
From Verif Require Import Base Unicode PositionModel VersionModel TranslateModel CommandModel SyntaxModel TemplateModel.

(** ** Unique ids and names *)

(** Result of a search loop; [Diverges] is only used when the given number of iterations is not enough. *)
Inductive search (A : Type) := Found (a : A) | NotFound | Diverges.
Arguments Found {A} _.
Arguments NotFound {A}.
Arguments Diverges {A}.

(** analysis/utils.rs L1992-1999: the loop of [suggest_unique_id]. [max] is [T::MAX]; ids are [N]. *)
Fixpoint id_loop (fuel : nat) (max : N) (used : list N) (id : N) : search N :=
  match fuel with
  | 0 => Diverges
  | S fuel' =>
      if existsb (N.eqb id) used then
        if N.eqb id max then NotFound else id_loop fuel' max used (id + 1)%N
      else Found id
  end.
(** analysis/utils.rs L1986-2002 [suggest_unique_id]; one iteration per used id and one more are enough. *)
Definition suggest_unique_id (max : N) (preferred : option N) (used : list N) : search N :=
  id_loop (S (length used)) max used (match preferred with Some p => p | None => 1%N end).
(** analysis/utils.rs L1968-1983 [suggest_unique_id_mut] (the hash set is a list). *)
Definition suggest_unique_id_mut (max : N) (preferred : option N) (used : list N) : search N * list N :=
  match suggest_unique_id max preferred used with
  | Found id => (Found id, id :: used)
  | r => (r, used)
  end.

(** analysis/utils.rs L2009-2017: the loop of [suggest_unique_name]; [tries] counts down from [u8::MAX] to the
    suffix [255 - tries]. *)
Fixpoint name_loop (tries : nat) (preferred : str) (used : list str) (suggested : str) : str :=
  if existsb (str_eqb suggested) used then
    match tries with
    | 0 => preferred
    | S tries' => name_loop tries' preferred used (preferred ++ dec (N.of_nat (255 - tries)))
    end
  else suggested.
(** analysis/utils.rs L2005-2021 [suggest_unique_name]; the suffix starts at 2. *)
Definition suggest_unique_name (preferred : str) (used : list str) : str :=
  name_loop 253 preferred used preferred.

(** ** Indenting *)

(** [str::lines]: lines end at line feeds; a carriage return before the line feed is dropped. *)
Definition strip_cr (l : str) : str :=
  match rev l with c :: r => if N.eqb c c_cr then rev r else l | [] => l end.
Fixpoint lines_aux (cur s : str) : list str :=
  match s with
  | [] => match cur with [] => [] | _ => [rev cur] end
  | c :: s' => if N.eqb c c_nl then strip_cr (rev cur) :: lines_aux [] s' else lines_aux (c :: cur) s'
  end.
Definition lines (s : str) : list str := lines_aux [] s.

(** The loop of [apply_indenting] and [reduce_indenting]: lines joined by line feeds. *)
Definition map_lines (f : str -> str) (s : str) : str :=
  join_lines (map (fun l => match l with [] => [] | _ => f l end) (lines s)).
(** analysis/utils.rs L1923-1939 [apply_indenting] *)
Definition apply_indenting (input indent : str) : str :=
  match indent with [] => input | _ => map_lines (fun l => indent ++ l) input end.
(** analysis/utils.rs L1942-1958 [reduce_indenting] *)
Definition reduce_indenting (input indent : str) : str :=
  match indent with
  | [] => input
  | _ => map_lines (fun l => match strip_prefix indent l with Some r => r | None => l end) input
  end.
(** analysis/utils.rs L1200-1206 [end_indenting]: the characters are collected last first. *)
Fixpoint take_while_ch (p : char -> bool) (l : str) : str :=
  match l with c :: l' => if p c then c :: take_while_ch p l' else [] | [] => [] end.
Definition end_indenting (U : unicode) (ws : str) : str :=
  take_while_ch (fun c => negb (N.eqb c c_nl) && u_whitespace U c) (rev ws).
(** analysis/utils.rs L1189-1195 [item_indenting]; the argument is the element before the item. *)
Definition item_indenting (U : unicode) (prev : option elem) : option str :=
  match prev with
  | Some e => match kind_of e with WHITESPACE => Some (end_indenting U (text_of e)) | _ => None end
  | None => None
  end.
(** analysis/utils.rs L1208-1213 [item_children_indenting] *)
Definition item_children_indenting (U : unicode) (prev : option elem) : str :=
  match item_indenting U prev with
  | Some ((_ :: _) as i) => i ++ i
  | _ => lit "    "
  end.
(** analysis/actions.rs L84-136 [move_item_with_affixes]: the text inserted for a moved item. *)
Definition moved_text (U : unicode) (prev : option elem) (item : str) (indent prefix suffix : option str) : str :=
  let t := match item_indenting U prev with Some i => reduce_indenting item i | None => item end in
  let t := match indent with Some i => apply_indenting t i | None => t end in
  let t := match prefix with Some p => p ++ t | None => t end in
  match suffix with Some s => t ++ s | None => t end.

(** ** Project generation *)

(** crates/analyzer/src/utils.rs L6-20 [pascal_case] *)
Fixpoint pascal_loop (capitalize : bool) (s : str) : str :=
  match s with
  | [] => []
  | c :: s' =>
      if N.eqb c c_underscore then pascal_loop true s'
      else if capitalize then to_ascii_upper c :: pascal_loop false s'
      else c :: pascal_loop false s'
  end.
Definition pascal_case (s : str) : str := pascal_loop true s.

(** codegen.rs L12-43 [Project], [ProjectFile], [Error] *)
Record project_file := ProjectFile { pf_plain : str; pf_snippet : str }.
Record project := Project { pj_lib : project_file; pj_cargo : project_file }.
Inductive project_error := EPackageName | EContractName.
Inductive result (A E : Type) := Ok (a : A) | Err (e : E).
Arguments Ok {A E} _.
Arguments Err {A E} _.

(** [str::replace(char, &str)] *)
Definition replace_char (c d : char) (s : str) : str := map (fun x => if N.eqb x c then d else x) s.

(** codegen.rs L46-106 [new_project] *)
Definition lib_file (template module_name struct_name : str) : str :=
  str_replace (lit "MyContract") struct_name (str_replace (lit "my_contract") module_name template).
Definition name_char (U : unicode) (c : char) : bool :=
  u_alphanumeric U c || N.eqb c c_underscore || N.eqb c c_hyphen.
Definition is_v5 (v : version) : bool := match v with V5 => true | V4 => false end.
Definition new_project (U : unicode) (name : str) (v : version) : result project project_error :=
  if match name with [] => true | _ => false end || negb (forallb (name_char U) name) then Err EPackageName
  else if negb (match name with c :: _ => u_alphabetic U c | [] => false end) then Err EContractName
  else
    let module_name := replace_char c_hyphen c_underscore name in
    let struct_name := pascal_case module_name in
    let lib t := lib_file t module_name struct_name in
    let cargo t := str_replace (lit "my_contract") name t in
    Ok (Project
          (ProjectFile (lib (if is_v5 v then CONTRACT_PLAIN_V5 else CONTRACT_PLAIN))
                       (lib (if is_v5 v then CONTRACT_SNIPPET_V5 else CONTRACT_SNIPPET)))
          (ProjectFile (cargo (if is_v5 v then CARGO_TOML_PLAIN_V5 else CARGO_TOML_PLAIN))
                       (cargo (if is_v5 v then CARGO_TOML_SNIPPET_V5 else CARGO_TOML_SNIPPET)))).

(** analysis/utils.rs L1904-1920 [resolve_contract_name]; the names of the storage struct and of the module. *)
Definition resolve_contract_name (storage module_ : option str) : option str :=
  oor storage (option_map pascal_case module_).

(** ** Identifiers *)

(** analysis/diagnostics.rs L41-58 [Diagnostic], with its quick fixes. *)
Record adiag := ADiag { ad_message : str; ad_range : trange; ad_severity : severity; ad_fixes : option (list action) }.

(** The tokens below an element, with their offsets ([descendants_with_tokens], tokens only). *)
Fixpoint tokens_at (o : nat) (l : list (skind * str)) : list (nat * skind * str) :=
  match l with
  | [] => []
  | (k, t) :: l' => (o, k, t) :: tokens_at (o + bytes t) l'
  end.
(** analysis/diagnostics/common.rs L77-104 [ensure_no_ink_identifiers] *)
Definition ident_diag (tok : nat * skind * str) : option adiag :=
  let '(o, k, name) := tok in
  match k with
  | IDENT =>
      if starts_with (lit "__ink_") name then
        let suggested := str_replace (lit "__ink_") [] name in
        let range := (o, o + bytes name) in
        Some (ADiag (lit "Invalid identifier starting with __ink_: " ++ name) range SevError
                (match suggested with
                 | [] => None
                 | _ => Some [Action (lit "Rename identifier to `" ++ suggested ++ lit "`") AkQuickFix range
                                [TextEdit suggested range (Some (lit "${1:" ++ suggested ++ lit "}"))]]
                 end))
      else None
  | _ => None
  end.
Definition ensure_no_ink_identifiers (e : elem) (o : nat) : list adiag :=
  filter_map ident_diag (tokens_at o (leaves e)).
