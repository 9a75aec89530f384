(** The text format: /repo/reductionml-core/src/parsers/vw_text_parser.rs.
    Input is valid UTF-8, a list of code points; [fast_float::parse] is an argument. *)
From Coq Require Import List NArith ZArith Bool.
From Verif Require Import Base FloatOps Model_Hash Model_Features Model_Types.
Import ListNotations.
Open Scope N_scope.

(** *** [str] functions of the Rust standard library *)
(** [char::is_whitespace]: Unicode White_Space *)
Definition is_ws (c : N) : bool :=
  ((9 <=? c) && (c <=? 13)) || (c =? 32) || (c =? 133) || (c =? 160) || (c =? 5760)
  || ((8192 <=? c) && (c <=? 8202)) || (c =? 8232) || (c =? 8233) || (c =? 8239) || (c =? 8287) || (c =? 12288).
(** [char::is_ascii_whitespace] *)
Definition is_ascii_ws (c : N) : bool := (c =? 32) || (c =? 9) || (c =? 10) || (c =? 12) || (c =? 13).
(** [str::split] *)
Fixpoint split_by (p : N -> bool) (s : str) : list str :=
  match s with
  | [] => [[]]
  | c :: r =>
      if p c then [] :: split_by p r
      else match split_by p r with
           | t :: ts => (c :: t) :: ts
           | [] => [[c]]
           end
  end.
Definition split_char (c : N) : str -> list str := split_by (N.eqb c).
Definition nonempty (s : str) : bool := match s with [] => false | _ => true end.
(** [split_whitespace], [split_ascii_whitespace] *)
Definition split_ws (s : str) : list str := filter nonempty (split_by is_ws s).
Definition split_ascii_ws (s : str) : list str := filter nonempty (split_by is_ascii_ws s).
(** [trim_start], [trim_end], [trim] *)
Fixpoint trim_start (s : str) : str :=
  match s with [] => [] | c :: r => if is_ws c then trim_start r else s end.
Fixpoint trim_end (s : str) : str :=
  match s with
  | [] => []
  | c :: r => match trim_end r with
              | [] => if is_ws c then [] else [c]
              | t => c :: t
              end
  end.
Definition trim (s : str) : str := trim_end (trim_start s).
Definition starts_with (c : N) (s : str) : bool := match s with x :: _ => x =? c | [] => false end.
Definition ends_with (c : N) (s : str) : bool := match rev s with x :: _ => x =? c | [] => false end.
(** [str::lines]: pieces between newlines, the last one dropped if empty; "\r\n" ends a
    line too. *)
Definition strip_cr (s : str) : str :=
  match rev s with x :: r => if x =? 13 then rev r else s | [] => s end.
Fixpoint lines_of_pieces (ps : list str) : list str :=
  match ps with
  | [] => []
  | [p] => match p with [] => [] | _ => [p] end
  | p :: r => strip_cr p :: lines_of_pieces r
  end.
Definition str_lines (s : str) : list str := lines_of_pieces (split_char 10 s).
(** [str::parse::<u32>] *)
Definition parse_digits (s : str) : option N :=
  match s with
  | [] => None
  | _ => fold_left (fun acc c => match acc with
                                 | None => None
                                 | Some a => if (48 <=? c) && (c <=? 57)
                                             then (let v := a * 10 + (c - 48) in if v <? u32_mod then Some v else None)
                                             else None
                                 end) s (Some 0)
  end.
Definition parse_u32 (s : str) : option N :=
  match s with c :: r => if c =? 43 then parse_digits r else parse_digits s | [] => None end.

Definition str_shared : str := [115; 104; 97; 114; 101; 100].

(** *** reading, lines 392-454 *)
(** [BufRead::read_line]: up to and including the newline *)
Fixpoint read_line (s : str) : str * str :=
  match s with
  | [] => ([], [])
  | c :: r => if c =? 10 then ([c], r) else let '(l, r') := read_line r in (c :: l, r')
  end.

(** lines 392-419 [read_multi_lines]; one pass through the loop reads one line, so a
    number of steps above the length of the input is enough (None: out of steps). *)
Fixpoint read_multi (fuel : nat) (input buf : str) : option (option str * str) :=
  match fuel with
  | 0%nat => None
  | S fuel =>
      let len_before := length buf in
      let buf := match buf with [] => buf | _ => buf ++ [10] end in
      let '(l, rest) := read_line input in
      let buf := buf ++ l in
      match l, buf with
      | [], [] => Some (None, rest)
      | _, _ =>
          let buf := trim_end buf in
          if negb (nonempty buf) && Nat.eqb len_before 0 then read_multi fuel rest buf
          else if negb (Nat.eqb len_before 0) && Nat.eqb (length buf) len_before then Some (Some buf, rest)
          else read_multi fuel rest buf
      end
  end.

(** lines 421-440 [read_single_line] *)
Fixpoint read_single (fuel : nat) (input buf : str) : option (option str * str) :=
  match fuel with
  | 0%nat => None
  | S fuel =>
      let '(l, rest) := read_line input in
      let buf := buf ++ l in
      match l with
      | [] => Some (None, rest)
      | _ =>
          let buf := trim_end buf in
          if negb (nonempty buf) then read_single fuel rest buf else Some (Some buf, rest)
      end
  end.

(** lines 443-454 [get_next_chunk] with 518-520 [is_multiline]; the buffer handed in is
    cleared. *)
Definition is_multiline (ft : feat_type) (lt : label_type) : bool :=
  feat_type_eqb ft FTCb && label_type_eqb lt LTCb.
Definition get_next_chunk (multi : bool) (input : str) : option (option str * str) :=
  if multi then read_multi (S (S (length input))) input [] else read_single (S (S (length input))) input [].
(** train.rs:285, 307-318: all chunks of an input, in order (None: out of steps) *)
Fixpoint all_chunks (fuel : nat) (multi : bool) (input : str) : option (list str) :=
  match fuel with
  | 0%nat => None
  | S fuel =>
      match get_next_chunk multi input with
      | None => None
      | Some (None, _) => Some []
      | Some (Some c, rest) =>
          match all_chunks fuel multi rest with
          | Some cs => Some (c :: cs)
          | None => None
          end
      end
  end.

(** *** labels, lines 18-30 *)
Inductive tlabel (A : Type) : Type :=
| TLSimple (value : A) (weight : option A)
| TLCb (shared : bool) (acp : option (N * A * A)).
Arguments TLSimple {A}. Arguments TLCb {A}.

Section Text.
Context (O : FOps) (H : hasher) (pf : str -> option O) (dbg : bool) (seed nb : N).

(** lines 135-176 [parse_label] *)
Definition parse_label (tokens : list str) (lt : label_type) : out (option (tlabel O)) :=
  match lt with
  | LTSimple =>
      match tokens with
      | [] => Ok None
      | [a] => let* v := opt_or PErr (pf a) in Ok (Some (TLSimple v None))
      | [a; b] =>
          let* v := opt_or PErr (pf a) in
          let* w := opt_or PErr (pf b) in
          Ok (Some (TLSimple v (Some w)))
      | _ => Pn PTodo
      end
  | LTBinary => Pn PTodo
  | LTCb =>
      match tokens with
      | [] => Ok (Some (TLCb false None))
      | value :: _ =>
          if str_eqb (trim value) str_shared then Ok (Some (TLCb true None))
          else
            let parts := split_char 58 value in
            let* a := opt_or PNone (nth_error parts 0) in
            let* action := opt_or PErr (parse_u32 a) in
            let* c := opt_or PNone (nth_error parts 1) in
            let* cost := opt_or PErr (pf c) in
            let* p := opt_or PNone (nth_error parts 2) in
            let* prob := opt_or PErr (pf p) in
            Ok (Some (TLCb false (Some (action, cost, prob))))
      end
  end.

(** lines 180-225 [parse_feature] *)
Definition parse_feature (f : str) (off : N) : out (parsed_feature * O * N) :=
  match f with
  | 58 :: r =>
      match pf r with
      | Some v => let* off' := add32 dbg off 1 in Ok (PFAnon off, v, off')
      | None => Ok (PFSimpleStr [] (trim r), f1, off)
      end
  | _ =>
      match split_char 58 f with
      | name :: value :: _ =>
          match pf value with
          | Some v => Ok (PFSimple name, v, off)
          | None => Ok (PFSimpleStr name (trim value), f1, off)
          end
      | [name] => Ok (PFSimple name, f1, off)
      | [] => Pn PNone
      end
  end.

(** lines 227-266 [parse_namespace_inline] *)
Definition add_token (k : namespace) (nsv : O) (acc : sfeats O * N) (tok : str) : out (sfeats O * N) :=
  let* r := parse_feature tok (snd acc) in
  let '(p, v, off) := r in
  let* h := parsed_feature_hash H dbg p (ns_hash k) in
  let* mk := mask_from_bits dbg nb in
  Ok (sf_upd_ns k (sfn_add (mask mk h) (f_mul O v nsv)) (fst acc), off).
(** vw_text_parser.rs:233-250: name and value of a namespace *)
Definition namespace_head (seg : str) : out (str * O * list str) :=
  let tokens := split_ascii_ws seg in
  if starts_with 32 seg then Ok (str_space, f1, tokens)
  else
    match tokens with
    | [] => Pn PNone
    | info :: tokens =>
        match split_char 58 info with
        | name :: value :: _ => let* v := opt_or PErr (pf value) in Ok (name, v, tokens)
        | [name] => Ok (name, f1, tokens)
        | [] => Pn PNone
        end
    end.
(** vw_text_parser.rs:227-266 [parse_namespace_inline] *)
Definition parse_namespace (dest : sfeats O) (seg : str) : out (sfeats O) :=
  let* hd := namespace_head seg in
  let '(name, nsv, tokens) := hd in
  let k := ns_from_name H name seed in
  let* r := foldm (add_token k nsv) tokens (sf_upd_ns k (fun s => s) dest, 0) in
  Ok (fst r).

(** lines 317-342 [parse_initial_segment]; the tag is not used *)
Definition label_tokens (text : str) : list str :=
  let tokens := split_ws text in
  match rev tokens with
  | [] => []
  | x :: r => if starts_with 39 x || negb (ends_with 32 text) then rev r else tokens
  end.

(** lines 344-360 [parse_text_line_internal] *)
Definition parse_line (lt : label_type) (text : str) (dest : sfeats O) : out (option (tlabel O) * sfeats O) :=
  match split_char 124 text with
  | [] => Pn PNone
  | initial :: segs =>
      let* lb := parse_label (label_tokens initial) lt in
      let* dest' := foldm parse_namespace segs dest in
      Ok (lb, dest')
  end.

(** lines 49-65 [finalize_parsed_result_singleline] *)
Definition finalize_single (lb : option (tlabel O)) (dest : sfeats O) : out (features O * option (label O)) :=
  match lb with
  | Some (TLSimple x w) => Ok (FtsSimple dest, Some (LbSimple x (match w with Some w => w | None => f1 end)))
  | Some (TLCb _ _) => Pn PTodo
  | None => Ok (FtsSimple dest, None)
  end.

(** lines 97-112 *)
Definition as_cb_tlabel (l : option (tlabel O)) : out (bool * option (N * O * O)) :=
  match l with
  | None => Pn PNone
  | Some (TLCb s acp) => Ok (s, acp)
  | Some (TLSimple _ _) => Pn PNone
  end.
Definition find_label (ls : list (option (tlabel O))) : out (option (label O)) :=
  foldm (fun acc cl =>
           let* l := as_cb_tlabel (snd cl) in
           match snd l with
           | None => Ok acc
           | Some (_, c, p) =>
               match acc with
               | Some _ => Er EInvalidArgument
               | None => Ok (Some (LbCb (fst cl) c p))
               end
           end) (enum_from 0 ls) None.

(** lines 67-127 [finalize_parsed_result_multiline] *)
Definition finalize_multi (lt : label_type) (ft : feat_type) (rs : list (option (tlabel O) * sfeats O))
  : out (features O * option (label O)) :=
  if is_multiline ft lt then
    match rs with
    | [] => Er EInvalidArgument
    | (l0, f0) :: rest =>
        let* first := as_cb_tlabel l0 in
        if fst first then
          let* lb := find_label (map fst rest) in
          Ok (FtsCb (Some f0) (map snd rest), lb)
        else
          let* lb := find_label (map fst rs) in
          Ok (FtsCb None (map snd rs), lb)
    end
  else Er EInvalidArgument.

(** lines 456-494 [parse_chunk]; [dests i] is the object the pool gives for the i-th
    line *)
Fixpoint parse_lines (lt : label_type) (ls : list str) (dests : list (sfeats O))
  : out (list (option (tlabel O) * sfeats O)) :=
  match ls with
  | [] => Ok []
  | l :: ls =>
      let* r := parse_line lt l (hd sf_new dests) in
      let* rs := parse_lines lt ls (tl dests) in
      Ok (r :: rs)
  end.
Definition parse_chunk (ft : feat_type) (lt : label_type) (dests : list (sfeats O)) (chunk : str)
  : out (features O * option (label O)) :=
  if is_multiline ft lt then
    let* rs := parse_lines lt (str_lines chunk) dests in
    finalize_multi lt ft rs
  else
    let* r := parse_line lt chunk (hd sf_new dests) in
    finalize_single (fst r) (snd r).
(** how many objects are taken from the pool when all lines parse *)
Definition objects_used (ft : feat_type) (lt : label_type) (chunk : str) : nat :=
  if is_multiline ft lt then length (str_lines chunk) else 1%nat.

(** lines 268-314 [parse_namespace_info_token], [parse_namespace_info],
    [extract_namespace_features]; None is [ParsedNamespaceInfo::Default] *)
Fixpoint until_space (s : str) : option (str * str) :=
  match s with
  | [] => None
  | c :: r => if c =? 32 then Some ([], s)
              else match until_space r with Some (a, b) => Some (c :: a, b) | None => None end
  end.
(** vw_text_parser.rs:268-298 *)
Definition parse_namespace_info (seg : str) : out (option str * str) :=
  if starts_with 32 seg then Ok (None, tl seg)
  else
    let* ab := opt_or PNone (until_space seg) in
    match split_char 58 (fst ab) with
    | name :: value :: _ => match pf value with Some _ => Ok (Some name, snd ab) | None => Er EParser end
    | [name] => Ok (Some name, snd ab)
    | [] => Er EParser
    end.
(** vw_text_parser.rs:300-314 [extract_namespace_features] *)
Definition extract_namespace (seg : str) : out (option str * list parsed_feature) :=
  let* ir := parse_namespace_info seg in
  let* r := foldm (fun acc tok => let* x := parse_feature tok (snd acc) in
                                  let '(p, _, off) := x in Ok (fst acc ++ [p], off))
                  (split_ascii_ws (snd ir)) ([], 0) in
  Ok (fst ir, fst r).
(** lines 496-514 [extract_feature_names]: the pairs, in order; collecting them into a
    HashMap keeps the last one of equal keys. *)
Definition extract_pairs (multi : bool) (chunk : str) : out (list (option str * list parsed_feature)) :=
  let segs l := tl (split_char 124 l) in
  mapm extract_namespace (if multi then flat_map segs (str_lines chunk) else segs chunk).
End Text.
Arguments parse_label {O}. Arguments parse_feature {O}. Arguments add_token {O}. Arguments namespace_head {O}.
Arguments parse_namespace {O}. Arguments parse_line {O}. Arguments finalize_single {O}. Arguments as_cb_tlabel {O}.
Arguments find_label {O}. Arguments finalize_multi {O}. Arguments parse_lines {O}. Arguments parse_chunk {O}.
Arguments parse_namespace_info {O}. Arguments extract_namespace {O}. Arguments extract_pairs {O}.
