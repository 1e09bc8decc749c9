(** Validation of the model, not a claim about the code: the repository's compliance suite
    (tests/compliance.rs over tests/test_cases), run on the model and checked by computation. *)
From Verif Require Import SuiteData Parser Printer Fmt Api.

(** tests/compliance.rs:120-199 [normalize_strings] (which writes the value back unchanged),
    [normalize_identifiers], [dedupe_props], [remove_empty_children]. *)
Definition norm_entry (e : entry) : entry := En (ety e) (evalue e) (option_map ident_clear (ename e)) (eformat e) (espan e).
Fixpoint dedupe (es : list entry) : list entry :=
  match es with
  | [] => []
  | e :: r =>
    match ename e with
    | Some k => if existsb (fun e' => match ename e' with Some k' => str_eqb (ivalue k') (ivalue k) | None => false end) r
                then dedupe r else e :: dedupe r
    | None => e :: dedupe r
    end
  end.
Fixpoint norm_node (n : node) : node :=
  match n with
  | Node ty nm es c f sp =>
    Node ty (ident_clear nm) (dedupe (map norm_entry es))
      (match c with
       | Some (Doc ns df dsp) => match ns with [] => None | _ => Some (Doc (map norm_node ns) df dsp) end
       | None => None
       end) f sp
  end.
Definition norm_doc (d : doc) : doc := match d with Doc ns f sp => Doc (map norm_node ns) f sp end.
Definition stringify (d : doc) : str := show_doc (norm_doc (doc_autoformat config_no_comments d)).
(** tests/compliance.rs:76-110 [validate_res]; unlike there, a case without expected output has to be rejected. *)
Definition ok (c : str * str * option str) : bool :=
  match c with (_, src, exp) =>
    match parse_doc src, exp with
    | POk d, Some e => str_eqb (stringify d) e
    | PErr _, None => true
    | _, _ => false
    end
  end.
(** All cases with expected output give exactly that output; all cases without are rejected but three: [hex.kdl]
    is a legal document, the other two are accepted by mistake (C48_delete_refuted, C35_documented_refuted), which
    the suite does not notice because it only looks at cases with expected output. *)
Example compliance_suite :
  map (fun c => fst (fst c)) (filter (fun c => negb (ok c)) suite) =
    [lt_ "hex.kdl"; lt_ "multiline_raw_string_single_line_err_fail.kdl"; lt_ "unicode_delete_fail.kdl"]
  /\ length suite = 320%nat /\ length (filter (fun c => match snd c with Some _ => true | None => false end) suite) = 232%nat.
Proof. vm_compute. repeat split. Qed.
