(** Path helpers - src/libs/conduit/conduit_utils.cpp 449-725. *)
From Verif Require Import Base.
Local Open Scope nat_scope.

Fixpoint prefixb (p s : str) : bool :=
  match p, s with
  | [], _ => true
  | x :: p', y :: s' => if ascii_dec x y then prefixb p' s' else false
  | _ :: _, [] => false
  end.

(** std::string::find(sep): first position at which sep occurs. *)
Fixpoint find_sub (sep s : str) : option nat :=
  if prefixb sep s then Some 0
  else match s with
       | [] => None
       | _ :: r => option_map S (find_sub sep r)
       end.
(** std::string::rfind(sep): last position at which sep occurs. *)
Fixpoint rfind_sub (sep s : str) : option nat :=
  match s with
  | [] => if prefixb sep s then Some 0 else None
  | _ :: r =>
      match rfind_sub sep r with
      | Some i => Some (S i)
      | None => if prefixb sep s then Some 0 else None
      end
  end.

(** split_string(str,sep,curr,next), conduit_utils.cpp 450-470: returns
    (curr,next).  Note that [next] starts one byte after the match even when
    [sep] is longer than one byte.  [sep] = "" is not modelled. *)
Definition split_string (s sep : str) : str * str :=
  match find_sub sep s with
  | Some f =>
      (firstn f s, if f =? List.length s - 1 then [] else skipn (f + 1) s)
  | None => (s, [])
  end.
(** rsplit_string, conduit_utils.cpp 503-523: returns (curr,next). *)
Definition rsplit_string (s sep : str) : str * str :=
  match rfind_sub sep s with
  | Some f =>
      (if f =? List.length s - 1 then [] else skipn (f + 1) s, firstn f s)
  | None => (s, [])
  end.

Definition slash : ascii := "/"%char.
(** conduit_utils.cpp 536-557 *)
Definition split_path (p : str) : str * str := split_string p [slash].
Definition rsplit_path (p : str) : str * str := rsplit_string p [slash].

(** conduit_utils.cpp 559-573 *)
Definition join_path (l r : str) : str :=
  match l with
  | [] => r
  | _ =>
      if ascii_dec (last l "000"%char) slash then l ++ r
      else match r with [] => l | _ => l ++ slash :: r end
  end.

(** split_string(str,char,vector), conduit_utils.cpp 473-500: [acc] is the
    reversed token between [start] and [c]; scanning stops at a NUL byte. *)
Fixpoint split_vec (s : str) (sep : ascii) (acc : str) : list str :=
  match s with
  | [] => match acc with [] => [] | _ => [rev acc] end
  | c :: r =>
      if ascii_dec c "000"%char then
        match acc with [] => [] | _ => [rev acc] end
      else if ascii_dec c sep then
        match acc with
        | [] => split_vec r sep []
        | _ => rev acc :: split_vec r sep []
        end
      else split_vec r sep (c :: acc)
  end.
Definition split_string_vec (s : str) (sep : ascii) : list str := split_vec s sep [].

(** The windows drive-letter test shared by the two file path functions:
    sep == ":" && path.size() > 2 && path[1] == ':' && path[2] == '\\'
    (conduit_utils.cpp 620-624, 667-671). *)
Definition drive_case (path sep : str) : bool :=
  str_eqb sep [":"%char] && (2 <? List.length path) &&
  (if ascii_dec (nth 1 path "000"%char) ":"%char then true else false) &&
  (if ascii_dec (nth 2 path "000"%char) "\"%char then true else false).

(** split_file_path(path,sep,...), conduit_utils.cpp 608-651 *)
Definition split_file_path (path sep : str) : str * str :=
  if drive_case path sep then
    if 3 <? List.length path then
      let '(c, n) := split_string (skipn 3 path) sep in
      (firstn 3 path ++ c, n)
    else (path, [])
  else split_string path sep.
(** rsplit_file_path(path,sep,...), conduit_utils.cpp 655-708 *)
Definition rsplit_file_path (path sep : str) : str * str :=
  if drive_case path sep then
    if 3 <? List.length path then
      let '(c, n) := rsplit_string (skipn 3 path) sep in
      match n with
      | [] => (firstn 3 path ++ c, n)
      | _ => (c, firstn 3 path ++ n)
      end
    else (path, [])
  else rsplit_string path sep.

(** join_file_path, conduit_utils.cpp 713-725, with file_path_sep_string = "/"
    (non-Windows build). *)
Definition join_file_path (l r : str) : str :=
  match l with
  | [] => r
  | _ => if ascii_dec (last l "000"%char) slash then l ++ r else l ++ slash :: r
  end.

(** trim_string, conduit_utils.cpp 526-533. *)
Fixpoint drop_while (f : ascii -> bool) (s : str) : str :=
  match s with
  | [] => []
  | c :: r => if f c then drop_while f r else s
  end.
Definition in_set (cs : str) (c : ascii) : bool :=
  existsb (fun x => if ascii_dec x c then true else false) cs.
(** The second erase uses find_last_not_of + 1; npos + 1 = 0 erases the whole
    (then all-trimmable, hence already empty) string. *)
Definition trim_string (s cs : str) : str :=
  rev (drop_while (in_set cs) (rev (drop_while (in_set cs) s))).
