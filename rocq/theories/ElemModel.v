(** Element table, src/elements.c *)
From Coq Require Import ZArith List String Bool.
Import ListNotations.
Local Open Scope string_scope.

(** struct element_table (elements.c:34-38); the mass in units of 1e-6 so that the decimal
    numbers of the source are exact *)
Record elem := Elem { e_name : string; e_short : string; e_mass : Z }.

(** elements[], elements.c:38-94 *)
Definition elements : list elem :=
  [ Elem "Hydrogen" "H" 1007900;
    Elem "Helium" "He" 4002600;
    Elem "Lithium" "Li" 6941000;
    Elem "Beryllium" "Be" 9012180;
    Elem "Boron" "B" 10810000;
    Elem "Carbon" "C" 12011000;
    Elem "Nitrogen" "N" 14006740;
    Elem "Oxygen" "O" 15999400;
    Elem "Fluorine" "F" 18998403;
    Elem "Neon" "Ne" 20179000;
    Elem "Sodium" "Na" 22989770;
    Elem "Magnesium" "Mg" 24305000;
    Elem "Aluminum" "Al" 26981540;
    Elem "Silicon" "Si" 28086000;
    Elem "Phosphorus" "P" 30973760;
    Elem "Sulfur" "S" 32060000;
    Elem "Chlorine" "Cl" 35453000;
    Elem "Argon" "Ar" 39948000;
    Elem "Potassium" "K" 39098000;
    Elem "Calcium" "Ca" 40080000;
    Elem "Scandium" "Sc" 44955900;
    Elem "Titanium" "Ti" 47900000;
    Elem "Vanadium" "V" 50941400;
    Elem "Cromium" "Cr" 51996000;
    Elem "Manganese" "Mn" 54938000;
    Elem "Iron" "Fe" 55847000;
    Elem "Cobalt" "Co" 58933200;
    Elem "Nickel" "Ni" 58700000;
    Elem "Copper" "Cu" 63546000;
    Elem "Zinc" "Zn" 65380000;
    Elem "Gallium" "Ga" 69720000;
    Elem "Germanium" "Ge" 72630000;
    Elem "Arsenic" "As" 74921600;
    Elem "Selenium" "Se" 78960000;
    Elem "Bromine" "Br" 79904000;
    Elem "Krypton" "Kr" 83800000;
    Elem "Rubidium" "Rb" 85467800;
    Elem "Strontium" "Sr" 87620000;
    Elem "Yttrium" "Y" 88905900;
    Elem "Zirconium" "Zr" 91220000;
    Elem "Niobium" "Nb" 92906400;
    Elem "Molybdenum" "Mo" 95940000;
    Elem "Technetium" "Tc" 97000000;
    Elem "Ruthenium" "Ru" 101070000;
    Elem "Rhodium" "Rh" 102905500;
    Elem "Palladium" "Pd" 106400000;
    Elem "Silver" "Ag" 107868000;
    Elem "Cadmium" "Cd" 112400000;
    Elem "Indium" "In" 114820000;
    Elem "Tin" "Sn" 118690000;
    Elem "Antimony" "Sb" 121750000;
    Elem "Tellurium" "Te" 127600000;
    Elem "Iodine" "I" 126904500;
    Elem "Xenon" "Xe" 131300000;
    Elem "Cesium" "Cs" 132905400;
    Elem "Barium" "Ba" 137340000;
    Elem "Lanthanum" "La" 138905500;
    Elem "Cerium" "Ce" 140120000;
    Elem "Praseodynium" "Pr" 140907700;
    Elem "Neodymium" "Nd" 144240000;
    Elem "Promethium" "Pm" 145000000;
    Elem "Samarium" "Sm" 150400000;
    Elem "Europium" "Eu" 151960000;
    Elem "Gadolinium" "Gd" 157250000;
    Elem "Terbium" "Tb" 158925400;
    Elem "Dysprosium" "Dy" 162500000;
    Elem "Holmium" "Ho" 164930400;
    Elem "Erbium" "Er" 167260000;
    Elem "Thulium" "Tm" 168934200;
    Elem "Ytterbium" "Yb" 173040000;
    Elem "Lutetium" "Lu" 174970000;
    Elem "Hafnium" "Hf" 178490000;
    Elem "Tantalum" "Ta" 180947900;
    Elem "Tungsten" "W" 183500000;
    Elem "Rhenium" "Re" 186207000;
    Elem "Osmium" "Os" 190200000;
    Elem "Iridium" "Ir" 192220000;
    Elem "Platinum" "Pt" 195090000;
    Elem "Gold" "Au" 196966500;
    Elem "Mercury" "Hg" 200590000;
    Elem "Thallium" "Tl" 204370000;
    Elem "Lead" "Pb" 207200000;
    Elem "Bismuth" "Bi" 208980400;
    Elem "Polonium" "Po" 209000000;
    Elem "Astatine" "At" 210000000;
    Elem "Radon" "Rn" 222000000;
    Elem "Francium" "Fr" 223000000;
    Elem "Radium" "Ra" 226025400;
    Elem "Actinium" "Ac" 227000000;
    Elem "Thorium" "Th" 232038100;
    Elem "Protactinium" "Pa" 231035900;
    Elem "Uranium" "U" 238029000;
    Elem "Neptunium" "Np" 237048200;
    Elem "Plutonium" "Pu" 244000000;
    Elem "Americium" "Am" 243000000;
    Elem "Curium" "Cm" 247000000;
    Elem "Berkelium" "Bk" 247000000;
    Elem "Californium" "Cf" 251000000;
    Elem "Einsteinium" "Es" 252000000;
    Elem "Fermium" "Fm" 257000000;
    Elem "Mendelevium" "Md" 258000000;
    Elem "Nobelium" "No" 259000000;
    Elem "Lawrencium" "Lr" 262000000;
    Elem "Rutherfordium" "Rf" 261000000;
    Elem "Dubnium" "Db" 262000000;
    Elem "Seaborgium" "XX" 263000000;
    Elem "Bohrium" "Bf" 262000000;
    Elem "Hassium" "Hs" 269000000;
    Elem "Meitnerium" "Mt" 278000000;
    Elem "Darmstadtium" "Ds" 281000000 ].

(** [num > size || num < 1]: the comparison with a size_t is made in 64 bit unsigned
    arithmetic *)
Definition as_size (num : Z) : Z := (num mod 18446744073709551616)%Z.

(** ele_mass_from_number, elements.c:100-107; 0 = unknown *)
Definition mass_from_number (num : Z) : Z :=
  let size := Z.of_nat (List.length elements) in
  if ((size <? as_size num) || (num <? 1))%Z%bool then 0%Z
  else match nth_error elements (Z.to_nat (num - 1)) with
       | Some e => e_mass e
       | None => (-1)%Z (* outside of the table *)
       end.

(** the loops of 117-126 and 140-149: first index whose name (or short name) is [s] *)
Fixpoint find_from (key : elem -> string) (s : string) (i : nat) (l : list elem) : option (nat * elem) :=
  match l with
  | [] => None
  | e :: l => if String.eqb s (key e) then Some (i, e) else find_from key s (S i) l
  end.
(** names shorter than three characters are looked for among the short names *)
Definition key_of (s : string) : elem -> string := if Nat.ltb (String.length s) 3 then e_short else e_name.
Definition find_elem (s : string) : option (nat * elem) := find_from (key_of s) s 0 elements.

(** ele_mass_from_name, elements.c:113-129 *)
Definition mass_from_name (s : string) : Z := match find_elem s with Some (_, e) => e_mass e | None => 0%Z end.
(** ele_number_from_name, elements.c:135-151 *)
Definition number_from_name (s : string) : Z := match find_elem s with Some (i, _) => Z.of_nat i + 1 | None => 0%Z end.
