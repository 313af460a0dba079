open M
let rec pos = function XH -> 1 | XO p -> 2 * pos p | XI p -> 2 * pos p + 1
let z = function Z0 -> 0 | Zpos p -> pos p | Zneg p -> - pos p
let f = if Sys.argv.(1) = "gas" then gas_of else model_of
let () = try while true do
  let l = input_line stdin in
  let cs = List.init (String.length l) (String.get l) in
  print_endline (String.concat "" (List.map (fun b -> Printf.sprintf "%02x" (z b)) (f cs)))
done with End_of_file -> ()
