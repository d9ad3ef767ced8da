(** Source texts, the source manager and import paths.

    The file system is a function from paths to file contents. *)
From Coq Require Import ZArith List Bool String.
From Verif Require Import Base.
Import ListNotations.
Open Scope Z_scope.

(** C [tolower] on ASCII. *)
Definition tolower (c : Z) : Z := if (65 <=? c) && (c <=? 90) then c + 32 else c.

(** lib_common/source.h:90-92.  [so_data] is the buffer without the terminating
    NUL that is always appended; [so_lines] holds offsets instead of pointers. *)
Record source_t : Type := Source {
  so_path : bytes;
  so_data : option bytes;
  so_lines : list Z
}.

(** lib_common/source.h:44-48 *)
Definition so_empty : source_t := Source [] None [].

(** lib_common/source.h:78-87, the loop; [off] is the offset of [s] in the
    buffer, [s] what is left up to the first NUL. *)
Fixpoint gen_lines_from (s : bytes) (off : Z) : list Z :=
  match s with
  | [] => []
  | c :: r =>
      if c =? 10 then (off + 1) :: gen_lines_from r (off + 1)
      else gen_lines_from r (off + 1)
  end.

(** lib_common/source.h:74-88 *)
Definition gen_lines (data : bytes) : list Z := 0 :: gen_lines_from (cstr data) 0.

(** lib_common/source.h:30-42: the argument is a C string. *)
Definition load_from_string (str : bytes) : bool * source_t :=
  match cstr str with
  | [] => (false, so_empty)
  | s => (true, Source (bs "unknown") (Some s) (gen_lines s))
  end.

(** lib_common/source.h:13-28 and lib_common/file.h:7-37: a missing or empty
    file is a failure that leaves the object cleared. *)
Definition load_from_file (fs : bytes -> option bytes) (path : bytes) : bool * source_t :=
  match fs path with
  | None => (false, so_empty)
  | Some [] => (false, so_empty)
  | Some d => (true, Source path (Some d) (gen_lines d))
  end.

(** lib_common/source.h:54-67, [None] is a false result; the argument is an
    unsigned 32-bit number. *)
Definition get_line (s : source_t) (num : Z) : res (option bytes) :=
  _ <- assert_ (1 <=? num) ;;
  let i := num - 1 in
  let data := match so_data s with Some d => d | None => [] end in
  if i + 1 =? zlen (so_lines s) then
    match znth (so_lines s) i with
    | Some off => Ok (Some (cstr (zskipn off data)))
    | None => Stuck SOob
    end
  else if i <? zlen (so_lines s) then
    match znth (so_lines s) i, znth (so_lines s) (i + 1) with
    | Some a, Some b => Ok (Some (zfirstn (b - a) (zskipn a data)))
    | _, _ => Stuck SOob
    end
  else Ok None.

(** std::string::rfind; [None] is npos. *)
Fixpoint rfind (s : bytes) (c : Z) (i : Z) : option Z :=
  match s with
  | [] => None
  | d :: r =>
      match rfind r c (i + 1) with
      | Some j => Some j
      | None => if d =? c then Some i else None
      end
  end.

(** lib_common/source.cpp:7-14 *)
Definition base_path (p : bytes) : bytes :=
  let last1 := match rfind p 47 0 with Some i => i | None => 0 end in
  let last2 := match rfind p 92 0 with Some i => i | None => 0 end in
  zfirstn (Z.max last1 last2) p.

(** lib_common/source.cpp:38-41 *)
Definition imported_path (s : source_t) (name : bytes) : bytes :=
  base_path (so_path s) ++ [47] ++ name.

(** lib_common/source.cpp:17-32, on C strings without their terminating NUL. *)
Fixpoint path_cmp (x y : bytes) : bool :=
  match x with
  | [] => true
  | a :: x' =>
      match y with
      | [] => false
      | b :: y' =>
          if tolower a =? tolower b then path_cmp x' y'
          else if (a =? 92) && (b =? 47) then path_cmp x' y'
          else if (a =? 47) && (b =? 92) then path_cmp x' y'
          else false
      end
  end.

(** lib_common/source.h:95-125: the manager is its list of sources.
    lib_common/source.cpp:43-52 *)
Definition sm_load (fs : bytes -> option bytes) (m : list source_t) (path : bytes)
  : bool * list source_t :=
  if existsb (fun s => path_cmp (so_path s) path) m then (true, m)
  else let (ok, s) := load_from_file fs path in (ok, m ++ [s]).

(** lib_common/source.cpp:54-57 *)
Definition sm_load_from_string (m : list source_t) (str : bytes) : bool * list source_t :=
  let (ok, s) := load_from_string str in (ok, m ++ [s]).
