(* Removing directories with all their contents.
   Source: asteria/src/library/filesystem.cpp:21-32 and 155-284.
   The file system is a list of paths, each with whether it is a directory; in
   that order directories are listed.  A path is the list of its components, so
   that p + '/' + n is p ++ [n].  Everything that is not a directory is plain,
   symbolic links included.  `deny` says for which paths the system calls fail.
   Simplifications: nobody else changes the file system meanwhile; types of
   entries are always found out, by d_type or by lstat; the special entries are
   not in the list. *)
From Verif Require Import Base.

Definition name := bytes.
Definition path := list name.
Inductive kind := Plain | Directory.
Definition fs := list (path * kind).

Definition name_eqb (a b : name) : bool := if list_eq_dec Z.eq_dec a b then true else false.
Definition path_eqb (p q : path) : bool := if list_eq_dec (list_eq_dec Z.eq_dec) p q then true else false.
(* what is left of a path after a prefix *)
Fixpoint strip (p q : path) : option path :=
  match p, q with
  | [], _ => Some q
  | a :: p, b :: q => if name_eqb a b then strip p q else None
  | _ :: _, [] => None
  end.

Section Remove.
Variable deny : path -> bool.

Definition kind_at (t : fs) (p : path) : option kind :=
  option_map snd (find (fun e => path_eqb (fst e) p) t).
Definition drop (t : fs) (p : path) : fs := filter (fun e => negb (path_eqb (fst e) p)) t.
(* readdir *)
Definition entries (t : fs) (p : path) : list (name * kind) :=
  flat_map (fun e => match strip p (fst e) with Some [n] => [(n, snd e)] | _ => [] end) t.

(* the system calls *)
Inductive errno := EACCES | ENOENT | EISDIR | ENOTDIR | ENOTEMPTY.
Inductive result := Done (t : fs) | Fail (e : errno).
Definition unlink (t : fs) (p : path) : result :=
  if deny p then Fail EACCES else
  match kind_at t p with
  | None => Fail ENOENT
  | Some Directory => Fail EISDIR
  | Some Plain => Done (drop t p)
  end.
Definition rmdir (t : fs) (p : path) : result :=
  if deny p then Fail EACCES else
  match kind_at t p with
  | None => Fail ENOENT
  | Some Plain => Fail ENOTDIR
  | Some Directory => match entries t p with [] => Done (drop t p) | _ => Fail ENOTEMPTY end
  end.
Definition opendir (t : fs) (p : path) : option (list (name * kind)) :=
  if deny p then None else
  match kind_at t p with
  | Some Directory => Some (entries t p)
  | _ => None
  end.

(* 21-32 *)
Inductive disp := rm_disp_rmdir | rm_disp_unlink | rm_disp_expand.
Definition element := (disp * path)%type.

(* 246-273: the entry n of the directory p *)
Definition enext (p : path) (e : name * kind) : element :=
  (match snd e with Directory => rm_disp_expand | Plain => rm_disp_unlink end, p ++ [fst e]).

(* 184-282; the top of the stack comes first.  UB if the fuel is used up. *)
Fixpoint remove_loop (fuel : nat) (t : fs) (stack : list element) (nremoved : Z) : fs * outcome Z :=
  match stack with
  | [] => (t, Ok nremoved)
  | (d, p) :: stack =>
    match fuel with
    | O => (t, UB)
    | S fuel =>
      match d with
      | rm_disp_rmdir =>
        match rmdir t p with
        | Done t => remove_loop fuel t stack (nremoved + 1)
        | Fail ENOENT => remove_loop fuel t stack nremoved
        | Fail _ => (t, Throw)
        end
      | rm_disp_unlink =>
        match unlink t p with
        | Done t => remove_loop fuel t stack (nremoved + 1)
        | Fail ENOENT => remove_loop fuel t stack nremoved
        | Fail _ => (t, Throw)
        end
      | rm_disp_expand =>
        match opendir t p with
        | None => (t, Throw)
        | Some es => remove_loop fuel t (rev (map (enext p) es) ++ (rm_disp_rmdir, p) :: stack) nremoved
        end
      end
    end
  end.

(* 155-284 std_filesystem_remove_recursive *)
Definition remove_recursive (t : fs) (p : path) : fs * outcome Z :=
  match unlink t p with
  | Done t => (t, Ok 1)
  | Fail ENOENT => (t, Ok 0)
  | Fail EISDIR =>
    match rmdir t p with
    | Done t => (t, Ok 1)
    | Fail _ => remove_loop (2 * length t) t [(rm_disp_expand, p)] 0
    end
  | Fail _ => (t, Throw)
  end.
End Remove.
