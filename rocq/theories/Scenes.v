(** Model of which scenes the viewer offers
    (/repo/examples/scenes/src/lottie.rs:20-99).
    Not modelled: the callback for empty directories, which
    [scene_from_files] ignores, and [default_scene] (25-40). *)
From Coq Require Import Bool List Arith String Ascii.
From Verif Require Import F64 Kurbo Value Animated Download.
Import ListNotations.
Open Scope list_scope.
Open Scope nat_scope.

(** What is at a path: a directory with its entries in the order the system
    gives them, of which reading may fail at the start or at any entry, or
    something else. *)
Inductive node := NotDir | Dir (entries : option (list (option string))).

(** [std::path]: components between slashes, without empty ones and dots *)
Fixpoint split (c : ascii) (s : string) : list string :=
  match s with
  | EmptyString => [EmptyString]
  | String x s => if Ascii.eqb x c then EmptyString :: split c s
                  else match split c s with
                       | [] => [String x EmptyString]
                       | h :: t => String x h :: t
                       end
  end.
(** [Path::components], as [Path::file_name] uses it *)
Definition components (p : string) : list string :=
  filter (fun s => negb (String.eqb s "" || String.eqb s ".")) (split "/" p).
(** [Path::file_name] *)
Definition file_name (p : string) : option string :=
  match rev (components p) with
  | [] => None
  | n :: _ => if String.eqb n ".." then None else Some n
  end.
(** [std::path::rsplit_file_at_dot] *)
Definition split_dot (n : string) : option string * option string :=
  if String.eqb n ".." then (Some n, None)
  else match rfind "." n with
       | None => (None, Some n)
       | Some 0 => (Some n, None)
       | Some i => (Some (substring 0 i n), Some (from_ (i + 1) n))
       end.
(** [Path::file_stem], [Path::extension] *)
Definition file_stem (p : string) : option string :=
  match file_name p with
  | None => None
  | Some n => match split_dot n with (Some b, _) => Some b | (None, a) => a end
  end.
(** [Path::extension], lottie.rs:45-62 *)
Definition extension (p : string) : option string :=
  match file_name p with
  | None => None
  | Some n => match split_dot n with (Some _, a) => a | (None, _) => None end
  end.
(** [Path::join] of an entry's name *)
Definition join (p n : string) : string := append p (append "/" n).

(** lottie.rs:74-89 [ExampleScene]: name and what it draws *)
Record scene := mkScene { sc_name : string; sc_composition : composition }.
(** lottie.rs:74-89 [example_scene_of], with the loading of
    [lottie_function_of] (91-99): [load p] is the composition in the file, if
    there is one that can be read *)
Definition example_scene_of (load : string -> option composition) (p : string) : res scene :=
  let name := match file_stem p with Some n => n | None => "unknown"%string end in
  match load p with
  | None => Panic
  | Some c => Ok (mkScene name c)
  end.
(** lottie.rs:52-60: the entries of a directory; [None] if reading it fails *)
Fixpoint read_entries (load : string -> option composition) (p : string) (es : list (option string)) : res (option (list scene)) :=
  match es with
  | [] => Ok (Some [])
  | None :: _ => Ok None
  | Some n :: es =>
      match extension n with
      | Some e =>
          if String.eqb e "json" then
            bind (example_scene_of load (join p n)) (fun s =>
            bind (read_entries load p es) (fun r => Ok (option_map (cons s) r)))
          else read_entries load p es
      | None => read_entries load p es
      end
  end.
(** lottie.rs:62 [sort_by_key] is a stable sort; [lower] is [str::to_lowercase] *)
Fixpoint insert (lower : string -> string) (s : scene) (l : list scene) : list scene :=
  match l with
  | [] => [s]
  | x :: l' => if String.leb (lower (sc_name s)) (lower (sc_name x)) then s :: l else x :: insert lower s l'
  end.
(** lottie.rs:62 [sort_by_key] *)
Definition sort_scenes (lower : string -> string) (l : list scene) : list scene := fold_right (insert lower) [] l.
(** lottie.rs:43-71 [scene_from_files_inner] *)
Fixpoint scene_from_files (fs : string -> node) (load : string -> option composition) (lower : string -> string)
  (files : list string) : res (option (list scene)) :=
  match files with
  | [] => Ok (Some [])
  | p :: ps =>
      bind (match fs p with
            | Dir None => Ok None
            | Dir (Some es) => bind (read_entries load p es) (fun r => Ok (option_map (sort_scenes lower) r))
            | NotDir => bind (example_scene_of load p) (fun s => Ok (Some [s]))
            end) (fun block =>
      match block with
      | None => Ok None
      | Some b => bind (scene_from_files fs load lower ps) (fun r => Ok (option_map (app b) r))
      end)
  end.
