(** The reader once more, with the order in which a [HashMap] is iterated as a parameter.

    The only iteration over a hash map or set in the crate is reader.rs:193-194
    ([header_properties.into_iter()]); the other accesses are [entry], [insert], [get] and
    [collect] into a map.  [order m] is the order in which the entries of [m] come out. *)
From Coq Require Import String Arith NArith Bool List.
From Verif Require Import ModelBase ModelUtf8 ModelLine ModelFormula ModelData ModelSource ModelReader.
Import ListNotations.

(** reader.rs:177-213 [parse_po_header] *)
Definition parse_po_header_o (order : smap (list str) -> list (str * list str)) (lib : lang_lib) (pf : platform) (r : reader) : outcome unit * reader :=
  match rd_next_unit r with
  | Some (UOk u) =>
      let props := extend_properties (rd_header_properties r) (order (header_map (msg_get_text (u_message u)))) in
      let r := Reader (rd_lines r) (rd_next_unit r) (rd_header_notes r ++ u_notes u)
                      (rd_header_comments r ++ u_comments u) props
                      (header_language lib (rd_target_language r) props) (rd_plural_forms r) in
      match sm_get (lit "Plural-Forms") props with
      | None => (Ok tt, r)
      | Some forms =>
          if is_empty forms then (Ok tt, r)
          else
            match plural_forms_parse pf forms with
            | Err e => (Err e, r)
            | Panic => (Panic, r)
            | Ok f =>
                (Ok tt, Reader (rd_lines r) (rd_next_unit r) (rd_header_notes r)
                               (rd_header_comments r) (rd_header_properties r)
                               (rd_target_language r) (Some f))
            end
      end
  | _ => (Ok tt, r)
  end.
(** reader.rs:29-61 [PoReader::new] *)
Definition reader_new_o (order : smap (list str) -> list (str * list str)) (lib : lang_lib) (pf : platform) (ls : lines) : outcome reader :=
  let r0 := Reader ls None [] [] [] (lang_invariant lib) None in
  match next_unit true r0 with
  | (Crash, _) => Panic
  | (Val (Some (UErr e)), _) => Err e
  | (Val nu, r1) =>
      let r2 := with_next_unit r1 nu in
      let has_header := match nu with Some (UOk u) => msg_is_empty (u_message u) | _ => false end in
      if has_header then
        match parse_po_header_o order lib pf r2 with
        | (Err e, _) => Err e
        | (Panic, _) => Panic
        | (Ok _, r3) =>
            match next_unit false r3 with
            | (Crash, _) => Panic
            | (Val nu, r4) => Ok (with_next_unit r4 nu)
            end
        end
      else Ok r2
  end.
