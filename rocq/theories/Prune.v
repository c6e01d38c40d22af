(** A loop over a walk that thins out the list of directories it is given (fs.py 998-1017 goes on with that list):
<<
    for root, dirs, files in u.walk(followlinks=...):
        seen.append((root, list(dirs), files))
        dirs[:] = [n for n in dirs if keep(root, n)]
>> *)
From Verif Require Import Str Exc UriParse BaseUri Mem Generic.

Definition walk_keeping {S} (b : backend S) (keep : uri -> str -> bool) (fuel : nat) (followlinks : bool) (u : uri) : M S (list (uri * list str * list str)) :=
  hooked b "walk" u
    (walk_gen b fuel true followlinks
              (fun acc root dirs files => ret (acc ++ [(root, dirs, files)], filter (keep root) dirs)) [] u).
