(* Standard input and output.
   Source: asteria/src/library/io.cpp:72-96, 124-220 and 248-279 (std_io_getc, _getln,
   _putc, _putln, _read).
   Standard input, if text-oriented, is the list of what fgetwc gives: a wide
   character or an error; its end is the end of file.  Standard output is the
   list of wide characters that fputwc has been called with successfully;
   `bad k` says whether it fails when there are k of them.  Binary-oriented
   input is the list of bytes, after which there is an error if `fails`, or
   the end of file.
   Simplifications: the conversion between wide characters and bytes, which the
   C library does, is left out; the error bit is not set before; streams are
   never reoriented; memory never runs out. *)
From Verif Require Import Base UtfModel FileModel.

(* 124-140 std_io_getc *)
Definition io_getc (inp : list (option Z)) : list (option Z) * outcome (option Z) :=
  match inp with
  | [] => ([], Ok None)
  | None :: inp => (inp, Throw)
  | Some wch :: inp => (inp, Ok (Some wch))
  end.

(* 149-166 *)
Fixpoint getln_loop (u8str : bytes) (inp : list (option Z)) : list (option Z) * outcome (option bytes) :=
  match inp with
  | [] => ([], Ok (match u8str with [] => None | _ => Some u8str end))
  | None :: inp => (inp, Throw)
  | Some wch :: inp =>
    if wch =? 10 then (inp, Ok (Some u8str))
    else match utf8_encode wch with
         | None => (inp, Throw)
         | Some s => getln_loop (u8str ++ s) inp
         end
  end.
(* 142-169 std_io_getln *)
Definition io_getln (inp : list (option Z)) := getln_loop [] inp.

Section Out.
Variable bad : nat -> bool.
Definition fputwc (out : list Z) (cp : Z) : option (list Z) := if bad (length out) then None else Some (out ++ [cp]).

(* 72-96 do_write_utf8_common *)
Fixpoint write_common (fuel : nat) (out : list Z) (text : bytes) (ncps : Z) : list Z * outcome Z :=
  match text with
  | [] => (out, Ok ncps)
  | _ =>
    match fuel with
    | O => (out, UB)
    | S fuel =>
      match utf8_decode text with
      | None => (out, Throw)
      | Some (cp, text) =>
        match fputwc out cp with
        | None => (out, Throw)
        | Some out => write_common fuel out text (ncps + 1)
        end
      end
    end
  end.
(* 171-194 std_io_putc, an integer *)
Definition io_putc_integer (out : list Z) (value : Z) : list Z * outcome Z :=
  if (value <? 0) || (0x10FFFF <? value) then (out, Throw)
  else match utf8_encode value with
       | None => (out, Throw)
       | Some _ => match fputwc out value with None => (out, Throw) | Some out => (out, Ok 1) end
       end.
(* 196-204 std_io_putc, a string *)
Definition io_putc_string (out : list Z) (value : bytes) : list Z * outcome Z := write_common (length value) out value 0.
(* 206-220 std_io_putln *)
Definition io_putln (out : list Z) (value : bytes) : list Z * outcome Z :=
  match write_common (length value) out value 0 with
  | (out, Ok ncps) => match fputwc out 10 with None => (out, Throw) | Some out => (out, Ok (ncps + 1)) end
  | r => r
  end.
End Out.

Section In.
Variable fails : bool.
(* 256-276; the rest of the input and the end-of-file flag are returned as well *)
Fixpoint stdin_loop (fuel : nat) (ntotal : Z) (data inp : bytes) (eof : bool) : bytes * bool * outcome (option bytes) :=
  let nbatch := Z.min (ntotal - size data) (size data / 2 + 127) in
  if nbatch =? 0 then (inp, eof, Ok (match data with [] => if eof then None else Some data | _ => Some data end))
  else match fuel with
       | O => (inp, eof, UB)
       | S fuel =>
         let chunk := ztake nbatch inp in
         if size chunk =? nbatch then stdin_loop fuel ntotal (data ++ chunk) (zdrop nbatch inp) eof
         else if fails then ([], eof, Throw)
         else ([], true, Ok (match data ++ chunk with [] => None | data => Some data end))
       end.
(* 248-279 std_io_read *)
Definition io_read (limit : option Z) (inp : bytes) (eof : bool) : bytes * bool * outcome (option bytes) :=
  let ntotal := Z.max 0 (Z.min (value_or limit INT_MAX) INT_MAX) in
  stdin_loop (S (length inp)) ntotal [] inp eof.
End In.

(* scripts that write lines, and that read as many *)
Fixpoint puts (bad : nat -> bool) (out : list Z) (lines : list bytes) : list Z * outcome unit :=
  match lines with
  | [] => (out, Ok tt)
  | l :: lines => match io_putln bad out l with
                  | (out, Ok _) => puts bad out lines
                  | (out, Throw) => (out, Throw)
                  | (out, UB) => (out, UB)
                  end
  end.
Fixpoint gets (n : nat) (inp : list (option Z)) : outcome (list (option bytes)) :=
  match n with
  | O => Ok []
  | S n => match io_getln inp with
           | (inp, Ok l) => match gets n inp with Ok ls => Ok (l :: ls) | Throw => Throw | UB => UB end
           | (_, Throw) => Throw
           | (_, UB) => UB
           end
  end.
