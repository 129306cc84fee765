(** Model of the file downloader in /repo/examples/scenes/src/download.rs.
    The file system, the servers and the user's answers are data. Not
    modelled: what is printed, the list of default files (a parameter). *)
From Coq Require Import ZArith Bool List String Ascii Arith.
Import ListNotations.
Open Scope list_scope.
Open Scope nat_scope.

(** [u8] *)
Definition byte := Ascii.ascii.
(** Files by path. *)
Definition files := string -> option (list byte).
(** [File::create] and writing to it, download.rs:172-218 *)
Definition put (fs : files) (p : string) (c : list byte) : files := fun q => if String.eqb q p then Some c else fs q.

(** download.rs:161-165, 221-225 [LottieDownload], [BuiltinLottieProps] (size only) *)
Record download := mkDownload { dl_name : string; dl_url : string; dl_size : option nat }.

(** A server's answer to [get]: no answer, or bytes and whether reading fails
    after them. To [head]: no answer, or the [content-length] if it is there
    and a number. *)
Inductive answer := NoAnswer | Body (bytes : list byte) (fails : bool).
(** The servers by address, download.rs:41-124, 172-218. *)
Record server := mkServer { sv_head : string -> option (option nat); sv_get : string -> answer }.

(** download.rs:172-218 [fetch]: the files afterwards, and whether it succeeded.
    [writable p] says whether a file can be created there. *)
Definition fetch (path : string -> string) (writable : string -> bool) (sv : server) (limit : nat) (d : download) (fs : files) : files * bool :=
  let size_limit := match dl_size d with Some s => s | None => limit end in
  let head_ok :=
    match dl_size d with
    | Some s => match sv_head sv (dl_url d) with
                | None => false
                | Some (Some n) => n =? s
                | Some None => true
                end
    | None => true
    end in
  if negb head_ok then (fs, false)
  else
    let p := path (dl_name d) in
    match fs p with
    | Some _ => (fs, false)
    | None =>
        if negb (writable p) then (fs, false)
        else
          match sv_get sv (dl_url d) with
          | NoAnswer => (put fs p [], false)
          | Body bytes fails =>
              let written := firstn size_limit bytes in
              let fs := put fs p written in
              if (List.length bytes <? size_limit) && fails then (fs, false)
              else if size_limit <? List.length bytes then (fs, false)
              else match dl_size d with
                   | Some s => (fs, List.length written =? s)
                   | None => (fs, true)
                   end
          end
    end.

(** [str::find] of a character, [str::rfind] of a string: byte positions *)
Fixpoint find_char (c : ascii) (s : string) : option nat :=
  match s with
  | EmptyString => None
  | String x s => if Ascii.eqb x c then Some 0 else option_map S (find_char c s)
  end.
(** [str::rfind] of a string, download.rs:127-149 *)
Fixpoint rfind (p s : string) : option nat :=
  match s with
  | EmptyString => if prefix p EmptyString then Some 0 else None
  | String x s' => match rfind p s' with
                   | Some i => Some (S i)
                   | None => if prefix p s then Some 0 else None
                   end
  end.
(** the slice [s[i..]], download.rs:127-149 *)
Definition from_ (i : nat) (s : string) : string := substring i (String.length s - i) s.
(** download.rs:127-149 [parse_download] *)
Definition parse_download (value : string) : download :=
  match find_char "@"%char value with
  | Some at_index => mkDownload (substring 0 at_index value) (from_ (at_index + 1) value) None
  | None =>
      let end_index := match rfind ".json" value with Some i => i | None => String.length value end in
      let url_with_name := substring 0 end_index value in
      let name := match rfind "/" url_with_name with Some v => from_ (v + 1) url_with_name | None => url_with_name end in
      mkDownload name value None
  end.

(** The command line, and the user's answers. *)
Record command := mkCommand { cm_downloads : option (list string); cm_auto : bool; cm_limit : nat }.
(** What came of it: the files, how many downloads completed, failed and were
    not tried. *)
Record outcome := mkOutcome { oc_files : files; oc_done : nat; oc_failed : nat; oc_skipped : nat; oc_ok : bool }.
(** download.rs:86-124: the loop; [go] are the answers to "try other downloads?",
    used up one by one, no when there are none left *)
Fixpoint run_all (path : string -> string) (writable : string -> bool) (sv : server) (auto : bool) (limit : nat)
  (ds : list download) (go : list bool) (fs : files) (done failed : nat) : outcome :=
  match ds with
  | [] => mkOutcome fs done failed 0 true
  | d :: ds =>
      let (fs, ok) := fetch path writable sv limit d fs in
      if ok then run_all path writable sv auto limit ds go fs (done + 1) failed
      else
        let cont := if auto then false else hd false go in
        if cont then run_all path writable sv auto limit ds (tl go) fs done (failed + 1)
        else mkOutcome fs done (failed + 1) (List.length ds) false
  end.
(** download.rs:41-85: what to download *)
Definition to_download (path : string -> string) (defaults : list download) (cm : command) (accept : bool) (fs : files) : list download :=
  match cm_downloads cm with
  | Some l => map parse_download l
  | None =>
      let missing := filter (fun d => match fs (path (dl_name d)) with Some _ => false | None => true end) defaults in
      let accepted := if cm_auto cm then true else match missing with [] => false | _ => accept end in
      if accepted then missing else []
  end.
(** download.rs:41-125 [action] *)
Definition action (path : string -> string) (writable : string -> bool) (sv : server) (defaults : list download)
  (cm : command) (accept : bool) (go : list bool) (fs : files) : outcome :=
  run_all path writable sv (cm_auto cm) (cm_limit cm) (to_download path defaults cm accept fs) go fs 0 0.
