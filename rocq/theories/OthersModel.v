(** Other processes: what they do to files between two calls of the program.

    Not code of the crate; assumed behaviour of the kernel, as in OsModel.v.
    Others reach a file by a name.  A file they hold open is one with a name
    of its own (Linux: /proc/<pid>/fd/<n>), so unlinking a file does not take
    it away from them; renaming is [OLink] and [OUnlink].  Their writes are
    those of write(2) or stores through a shared mapping of theirs: seen by
    every mapping of the file at once, on storage later ([CWriteBack] of
    ApiModel.v) or, if [sync], at once.  A write that makes the file longer is
    [OGrow] and [OWrite].

    Simplification: each of these acts happens between two calls of the
    program, not in the middle of one. *)
From Verif Require Import Base OsModel.

Inductive other :=
| OMake (path : Z)                               (* a new empty file, if the name is free *)
| OUnlink (path : Z)
| OLink (from to : Z)                            (* [to] names what [from] names *)
| OGrow (path sz : Z)
| OCut (path sz : Z)
| OWrite (path off : Z) (d : bytes) (sync : bool).

Section Others.
  Variable t : target.

  (** Bytes [d] from offset [off] on, none behind the end. *)
  Definition splice (f : Z -> byte) (off : Z) (d : bytes) (size : Z) : Z -> byte :=
    fun i => if (off <=? i) && (i <? off + zlen d) && (i <? size) then nth (Z.to_nat (i - off)) d 0 else f i.
  Definition write_obj (o off : Z) (d : bytes) (sync : bool) (w : world) : world :=
    let x := w_obj w o in
    set_obj w (put (w_obj w) o
      {| o_size := o_size x; o_data := splice (o_data x) off d (o_size x);
         o_disk := if sync then splice (o_disk x) off d (o_size x) else o_disk x |}).

  (** Something done to the file called [path], if there is one. *)
  Definition at_name (path : Z) (f : Z -> world -> world) (w : world) : world :=
    match w_fs w path with Some o => f o w | None => w end.

  Definition others (e : other) (w : world) : world :=
    match e with
    | OMake path =>
      match w_fs w path with
      | Some _ => w
      | None => set_fs (set_next (set_obj w (put (w_obj w) (w_next w)
                  {| o_size := 0; o_data := fun _ => 0; o_disk := fun _ => 0 |})) (w_next w + 1))
                  (put (w_fs w) path (Some (w_next w)))
      end
    | OUnlink path => set_fs w (put (w_fs w) path None)
    | OLink from to => at_name from (fun o w => set_fs w (put (w_fs w) to (Some o))) w
    | OGrow path sz => at_name path (fun o w => if o_size (w_obj w o) <? sz then resize_obj t o sz w else w) w
    | OCut path sz => at_name path (fun o w => if sz <? o_size (w_obj w o) then resize_obj t o sz w else w) w
    | OWrite path off d sync => at_name path (fun o => write_obj o off d sync) w
    end.
End Others.
