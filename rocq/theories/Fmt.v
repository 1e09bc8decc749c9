(** Formatting: src/fmt.rs and the [autoformat*] / [clear_format*] methods. *)
From Verif Require Export Printer.

(** src/fmt.rs:7-21 [FormatConfig]. *)
Record config := Cfg {
  cfg_level : nat;
  cfg_indent : str;
  cfg_no_comments : bool;
  cfg_keep : bool
}.
(** src/fmt.rs:45-52: the defaults. *)
Definition config_default : config := Cfg 0 (lt_ "    ") false false.
(** src/document.rs:244-250, src/node.rs:268-274: configuration of [autoformat_no_comments]. *)
Definition config_no_comments : config := Cfg 0 (lt_ "    ") true false.

(** src/fmt.rs:54-111: the setters of [FormatConfigBuilder]. *)
Inductive setter :=
| SetLevel (n : nat)
| MaybeLevel (n : option nat)
| SetIndent (s : str)
| MaybeIndent (s : option str)
| SetNoComments (b : bool)
| MaybeNoComments (b : option bool).
Definition apply_setter (c : config) (x : setter) : config :=
  match x with
  | SetLevel n => Cfg n (cfg_indent c) (cfg_no_comments c) (cfg_keep c)
  | MaybeLevel (Some n) => Cfg n (cfg_indent c) (cfg_no_comments c) (cfg_keep c)
  | MaybeLevel None => c
  | SetIndent s => Cfg (cfg_level c) s (cfg_no_comments c) (cfg_keep c)
  | MaybeIndent (Some s) => Cfg (cfg_level c) s (cfg_no_comments c) (cfg_keep c)
  | MaybeIndent None => c
  | SetNoComments b => Cfg (cfg_level c) (cfg_indent c) b (cfg_keep c)
  | MaybeNoComments (Some b) => Cfg (cfg_level c) (cfg_indent c) b (cfg_keep c)
  | MaybeNoComments None => c
  end.
Definition build_config (l : list setter) : config := fold_left apply_setter l config_default.

Definition indentation (c : config) : str := repeat_str (cfg_level c) (cfg_indent c).
Definition nonempty (s : str) : bool := match s with [] => false | _ => true end.

(** src/fmt.rs:114-134 [autoformat_leading]. *)
Definition fmt_line (c : config) (line : str) : str :=
  let t := trim line in
  if nonempty t then indentation c ++ t ++ [10%N] else [].
Definition autoformat_leading (leading : str) (c : config) : str :=
  (if cfg_no_comments c then []
   else flat_map (fmt_line c) (lines (trim leading)))
  ++ indentation c.

(** src/fmt.rs:136-151 [autoformat_trailing]. The inner test of line 143 is always true, because the
    text was just trimmed; it is kept. *)
Definition autoformat_trailing (decor : str) (no_comments : bool) : str :=
  match decor with
  | [] => []
  | _ =>
    let d := trim decor in
    if (nonempty d && negb no_comments)%bool then
      (if str_eqb (trim_start d) d then [32%N] else [])
      ++ flat_map (fun l => l ++ [10%N]) (lines d)
    else []
  end.

(** src/identifier.rs:79-89 [clear_format] and [autoformat]. *)
Definition ident_clear (i : ident) : ident := Id (ivalue i) None (ispan i).

(** src/entry.rs:144-154 [KdlEntry::clear_format]. *)
Definition entry_clear (e : entry) : entry :=
  En (option_map ident_clear (ety e)) (evalue e) (option_map ident_clear (ename e)) None (espan e).

(** src/entry.rs:166-170 [keep_format]. *)
Definition entry_keep (e : entry) : entry :=
  En (ety e) (evalue e) (ename e)
     (option_map (fun f => EF (ef_value_repr f) (ef_leading f) (ef_trailing f) (ef_after_ty f)
                              (ef_before_ty_name f) (ef_after_ty_name f) (ef_after_key f)
                              (ef_after_eq f) true) (eformat e))
     (espan e).

(** src/entry.rs:173-197 [KdlEntry::autoformat] (without the v1 feature). *)
Definition entry_autoformat (e : entry) : entry :=
  let keep := match eformat e with Some f => ef_keep f | None => false end in
  En (ety e) (evalue e) (option_map ident_clear (ename e))
     (if keep then
        option_map (fun f => EF (ef_value_repr f) (ef_leading f) [] [] [] [] [] [] false) (eformat e)
      else None)
     (espan e).

(** src/node.rs:280-307: the node's own formatting. *)
Definition node_fmt_autoformat (c : config) (f : option nfmt) : nfmt :=
  match f with
  | Some f =>
    let tr := trim (autoformat_trailing (nf_trailing f) (cfg_no_comments c)) in
    NF (autoformat_leading (nf_leading f) c)
       (nf_before_ty_name f) (nf_after_ty_name f) (nf_after_ty f)
       [32%N]
       (autoformat_trailing (nf_before_terminator f) (cfg_no_comments c))
       (match nf_terminator f with
        | x :: _ => if N.eqb x 10%N then nf_terminator f else [10%N]
        | [] => [10%N]
        end)
       (match tr with
        | x :: _ => if is_whitespace x then tr else 32%N :: tr
        | [] => []
        end)
  | None => NF [] [] [] [] [] [] [10%N] []
  end.

Definition cfg_deeper (c : config) : config :=
  Cfg (S (cfg_level c)) (cfg_indent c) (cfg_no_comments c) (cfg_keep c).

(** src/node.rs:325-331: adjusting the formatting of a children block. *)
Definition children_fix (c : config) (d : doc) : doc :=
  match d with
  | Doc ns (Some f) sp =>
    Doc ns (Some (DF (trim (df_leading f) ++ [10%N]) (df_trailing f ++ indentation c))) sp
  | _ => d
  end.

(** src/node.rs:277-334 and src/document.rs:253-270 [autoformat_config]. *)
Fixpoint node_autoformat (c : config) (n : node) {struct n} : node :=
  match n with
  | Node ty name entries children format sp =>
    Node (option_map ident_clear ty) (ident_clear name)
         (map (fun e => entry_autoformat (if cfg_keep c then entry_keep e else e)) entries)
         (match children with
          | Some d => Some (children_fix c (doc_autoformat (cfg_deeper c) d))
          | None => None
          end)
         (Some (node_fmt_autoformat c format)) sp
  end
with doc_autoformat (c : config) (d : doc) {struct d} : doc :=
  match d with
  | Doc ns format sp =>
    Doc (map (node_autoformat c) ns)
        (option_map (fun f =>
           DF (autoformat_leading (df_leading f) c)
              (autoformat_trailing (df_trailing f) (cfg_no_comments c)
               ++ match ns with [] => [10%N] | _ => [] end)) format)
        sp
  end.

(** src/node.rs:134-150 and src/document.rs:225-236 [clear_format_recursive]. *)
Fixpoint node_clear (n : node) : node :=
  match n with
  | Node ty name entries children _ sp =>
    Node ty (ident_clear name) (map entry_clear entries)
         (match children with Some d => Some (doc_clear d) | None => None end) None sp
  end
with doc_clear (d : doc) : doc :=
  match d with
  | Doc ns _ sp => Doc (map node_clear ns) None sp
  end.
