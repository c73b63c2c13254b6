(** Model of the constructors in /repo/lithoxyl/emitters.py: StreamEmitter.__init__ 62-92,
    _get_sys_stream 48-52, FileEmitter.__init__ 136-140.  What the created emitters do is in
    Emitters.v.

    Simplifications: the codecs are an argument; [sys.stdout] and [sys.stderr] are an
    argument; unknown keyword arguments, which the code ignores, are left out. *)
From Coq Require Import Ascii.
From Verif Require Import model.PyBase model.Emitters.
Open Scope nat_scope.
Open Scope string_scope.

(** An object given as stream, as far as the code looks at it: a handle, whether it is an
    instance of stream_types (20), whether it has a callable [write], and its attributes
    [mode], [encoding] and [name] if it has them. *)
Record pystream := mkPs {
  ps_handle : nat; ps_io : bool; ps_write : bool;
  ps_mode : option string; ps_encoding : option string; ps_name : option string }.
(** The argument [stream]: a str, or anything else. *)
Inductive stream_arg := Name (s : string) | Stream (o : pystream).
(** [sys.stdout] or [sys.stderr]: the object and its attribute [buffer]. *)
Record sysstream := mkSys { ss_self : pystream; ss_buffer : option pystream }.
(** The argument [sep]: absent or None, str or bytes. *)
Inductive sep_arg := SepDefault | SepText (t : text) | SepBytes (b : bytes).
(** The codecs of the interpreter: known encodings, known error handlers, and encoding a text. *)
Record codecs := mkCd {
  cd_known : string -> bool;
  cd_handler : string -> bool;
  cd_encode : string -> string -> text -> option bytes }.

(** What the constructor does: the emitter, EncodingLookupError, ErrorBehaviorLookupError,
    TypeError, ValueError, or UnicodeEncodeError from encoding the separator. *)
Inductive created := Created (em : emitter) | BadEncoding | BadHandler | NotAStream | TextMode | BadSep.

(** [getattr(stream, 'encoding', None) or 'UTF-8'], 64.  A str has no attribute [encoding]. *)
Definition own_encoding (s : stream_arg) : string :=
  match s with
  | Stream o => match ps_encoding o with Some e => if e =? "" then "UTF-8" else e | None => "UTF-8" end
  | Name _ => "UTF-8"
  end.
(** _get_sys_stream, 48-52. *)
Definition get_sys_stream (s : sysstream) : pystream :=
  match ss_buffer s with Some b => b | None => ss_self s end.
(** ['b' in mode] *)
Fixpoint has_b (mode : string) : bool :=
  match mode with
  | EmptyString => false
  | String c rest => Ascii.eqb c "b"%char || has_b rest
  end.

Section Init.
Variable cd : codecs.
Variable stdout stderr : sysstream.
(** [os.linesep] *)
Variable linesep : text.

(** StreamEmitter.__init__, 62-92.  [encoding]: None if absent. *)
Definition stream_init (s : stream_arg) (encoding : option string) (errors : string) (sep : sep_arg) (reopen : bool) : created :=
  let enc := match encoding with Some e => e | None => own_encoding s end in
  if negb (cd_known cd enc) then BadEncoding                                  (* 67 *)
  else if negb (cd_handler cd errors) then BadHandler
  else
    let s' := match s with                                                    (* 69-70 *)
              | Name n => if n =? "stdout" then Stream (get_sys_stream stdout)
                          else if n =? "stderr" then Stream (get_sys_stream stderr) else s
              | Stream _ => s
              end in
    match s' with
    | Name _ => NotAStream                                                    (* 72-77 *)
    | Stream o =>
      if negb (ps_io o) && negb (ps_write o) then NotAStream
      else if match ps_mode o with Some m => negb (m =? "") && negb (has_b m) | None => false end then TextMode   (* 78-81 *)
      else
        match match sep with                                                  (* 85-89 *)
              | SepDefault => cd_encode cd enc "strict" linesep
              | SepText t => cd_encode cd enc "strict" t
              | SepBytes b => Some b
              end with
        | None => BadSep
        | Some b => Created (mkEm (Some (ps_handle o)) (ps_name o) b reopen (cd_encode cd enc errors))
        end
    end.

(** FileEmitter.__init__, 136-140, on a file with the given content (None: no such file),
    which can be opened: the content afterwards and what the constructor does.  [io.open]
    gives an [io.BufferedWriter].  [encoding]: None if absent; passing None is left out. *)
Definition file_init (h : nat) (path : string) (content : option bytes) (encoding : option string) (errors : string) (sep : sep_arg)
                     (reopen overwrite : bool) : option bytes * created :=
  let enc := match encoding with Some e => e | None => "utf-8" end in
  let mode := if overwrite then "wb" else "ab" in
  let content' := if overwrite then [] else match content with Some c => c | None => [] end in
  (Some content', stream_init (Stream (mkPs h true true (Some mode) None (Some path))) (Some enc) errors sep reopen).
End Init.

(** ** Streams that work
    External: a stream takes bytes, or it raises TypeError or the like for them: text streams
    and streams opened for reading.  The world: what each stream has taken, and the number
    of notes. *)
Definition stream_io (takes : nat -> bool) : io_ops ((nat -> bytes) * nat) :=
  mkIo _ (fun h b (w : (nat -> bytes) * nat) => if takes h then ((fun h' => if h' =? h then (fst w h' ++ b)%list else fst w h', snd w), None) else (w, Some ExOther))%nat
       (fun _ w => (w, None)) (fun _ w => (w, None)) (fun _ w => (w, inr ExOther))
       (fun w => ((fst w, S (snd w)), None)).
