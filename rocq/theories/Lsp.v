(** The language server of tools/kdl-lsp/src/main.rs: the texts it holds, the diagnostics it answers with, and where it says they are. *)
From Coq Require Import Lia Bool Arith.
From Verif Require Export DParser.
From Verif Require V1.

(** ** ropey 1.6.1 (with its default features), as far as it is used *)
(** The line breaks of the feature [unicode_lines]. *)
Definition rope_breaks : list char := [10; 11; 12; 13; 133; 8232; 8233]%N.
(** A line break ends with [c], before [r]: a carriage return before a line feed ends none. *)
Definition ends_line (c : char) (r : str) : bool :=
  mem c rope_breaks && negb (N.eqb c 13 && match r with d :: _ => N.eqb d 10 | [] => false end).
(** [Rope::byte_to_char]: the characters that end at or before the byte. *)
Fixpoint byte_to_char (b : N) (s : str) : nat :=
  match s with
  | c :: r => if (clen c <=? b)%N then S (byte_to_char (b - clen c) r) else 0
  | [] => 0
  end.
(** [Rope::byte_to_line], for the byte where the [n]th character begins: it counts the line breaks that end before it. *)
Fixpoint char_to_line (n : nat) (s : str) : nat :=
  match n, s with
  | S n, c :: r => (if ends_line c r then 1 else 0) + char_to_line n r
  | _, _ => 0
  end.
Definition byte_to_line (b : N) (s : str) : nat := char_to_line (byte_to_char b s) s.
(** [Rope::line_to_char]. *)
Fixpoint line_to_char (l : nat) (s : str) : nat :=
  match l, s with
  | S l', c :: r => S (line_to_char (if ends_line c r then l' else l) r)
  | _, _ => 0
  end.
(** [Rope::char_to_utf16_cu]. *)
Definition units (c : char) : N := if (c <? 65536)%N then 1%N else 2%N.
Fixpoint char_to_utf16 (n : nat) (s : str) : N :=
  match n, s with
  | S n, c :: r => (units c + char_to_utf16 n r)%N
  | _, _ => 0%N
  end.

(** ** Positions *)
(** [as u32]. *)
Definition wrap32 (n : N) : N := (n mod 2 ^ 32)%N.
(** tools/kdl-lsp/src/main.rs:161-178 [byte_to_position]; [None] if the subtraction overflows. *)
Definition byte_to_position (b : N) (s : str) : option (N * N) :=
  let b := N.min b (blen s) in
  let l := byte_to_line b s in
  let hi := char_to_utf16 (byte_to_char b s) s in
  let lo := char_to_utf16 (line_to_char l s) s in
  if (lo <=? hi)%N then Some (wrap32 (N.of_nat l), wrap32 (hi - lo)) else None.

(** ** Diagnostics *)
(** tools/kdl-lsp/src/main.rs:180-186 [to_lsp_sev], with the numbers of the protocol. *)
Inductive lsp_severity := ERROR | WARNING | HINT.
Definition to_lsp_sev (s : severity) : lsp_severity :=
  match s with Advice => HINT | Warning => WARNING | Error => ERROR end.
(** [Diagnostic]; the fields that are always [None] are left out, among them [code], which [KdlDiagnostic] does not have. *)
Record item := Item { it_start : N * N; it_end : N * N; it_severity : lsp_severity; it_message : str }.
Definition bind_opt {A B} (o : option A) (f : A -> option B) : option B := match o with Some a => f a | None => None end.
(** tools/kdl-lsp/src/main.rs:108-126; [None] is a panic. *)
Definition to_item (s : str) (d : diagnostic) : option item :=
  bind_opt (byte_to_position (soff (dg_span d)) s) (fun a =>
  bind_opt (byte_to_position (soff (dg_span d) + slen (dg_span d)) s) (fun b =>
  Some (Item a b (to_lsp_sev (dg_severity d)) (show_diagnostic d)))).
Fixpoint all_opt {A B} (f : A -> option B) (l : list A) : option (list B) :=
  match l with
  | [] => Some []
  | a :: l => bind_opt (f a) (fun b => bind_opt (all_opt f l) (fun m => Some (b :: m)))
  end.
(** [str::parse::<KdlDocument>] with the feature [v1-fallback] (src/document.rs:347-368), which the server turns on. [other] is the parser of the crate kdl 4: [None] if it accepts the text, otherwise the one diagnostic made from its error (src/error.rs:124-141). *)
Definition diagnostics_of (other : str -> option diagnostic) (s : str) : list diagnostic :=
  match parse_doc s with
  | RErr e => match other s with None => [] | Some d => if V1.detect_v1 s then [d] else ke_diagnostics e end
  | _ => []
  end.

(** ** The server *)
(** tools/kdl-lsp/src/main.rs:11-15 [Backend]: the map of documents, newest first. *)
Definition server : Type := list (str * str).
Fixpoint get (u : str) (m : server) : option str :=
  match m with
  | [] => None
  | (v, t) :: m => if str_eqb u v then Some t else get u m
  end.
Fixpoint remove (u : str) (m : server) : server :=
  match m with
  | [] => []
  | (v, t) :: m => if str_eqb u v then remove u m else (v, t) :: remove u m
  end.
(** tools/kdl-lsp/src/main.rs:17-22 [on_change]. *)
Definition on_change (u t : str) (m : server) : server := (u, t) :: remove u m.
(** The notifications that reach the documents; of a change only the texts, since the server asks for full texts. They are taken to be handled one after the other. *)
Inductive event :=
| DidOpen (u t : str)
| DidChange (u : str) (changes : list str)
| DidSave (u : str) (t : option str)
| DidClose (u : str).
(** tools/kdl-lsp/src/main.rs:79-98; [None] is a panic. *)
Definition handle (m : server) (e : event) : option server :=
  match e with
  | DidOpen u t => Some (on_change u t m)
  | DidChange u [] => None
  | DidChange u (t :: _) => Some (on_change u t m)
  | DidSave u (Some t) => Some (on_change u t m)
  | DidSave u None => Some m
  | DidClose u => Some (remove u m)
  end.
Fixpoint serve (m : server) (es : list event) : option server :=
  match es with
  | [] => Some m
  | e :: es => bind_opt (handle m e) (fun m => serve m es)
  end.
(** tools/kdl-lsp/src/main.rs:100-136 [diagnostic]. [Rope::from_str] and its [to_string] are inverse. *)
Definition diagnostic_request (other : str -> option diagnostic) (m : server) (u : str) : option (list item) :=
  match get u m with
  | Some s => all_opt (to_item s) (diagnostics_of other s)
  | None => Some []
  end.
