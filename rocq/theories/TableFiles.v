(** * The table files shipped in table/, as text *)

From Verif Require Import Base.

(** table/safe.tbl *)
Definition safe_tbl : str := bs "# This file is part of the Detox package.
#
# Copyright (c) Doug Harple <detox.dharple@gmail.com>
#
# For the full copyright and license information, please view the LICENSE
# file that was distributed with this source code.

#
# This file replaces 7-bit characters that are special to shells with ""_"" or
# ""-"".  The exception is ampersand, which gets translated to ""_and_"".
#
# The absence of a ""default"" option means that if a character is not specified
# here, it will not be altered.
#

start

#
# Control characters to translate to _
#
# Descriptions pulled from ascii(7)
#

0x01		_	#  SOH (start of heading)
0x02		_	#  STX (start of text)
0x03		_	#  ETX (end of text)
0x04		_	#  EOT (end of transmission)
0x05		_	#  ENQ (enquiry)
0x06		_	#  ACK (acknowledge)
0x07		_	#  BEL '\a' (bell)
0x08		_	#  BS  '\b' (backspace)
0x09		_	#  HT  '\t' (horizontal tab)
0x0a		_	#  LF  '\n' (new line)
0x0b		_	#  VT  '\v' (vertical tab)
0x0c		_	#  FF  '\f' (form feed)
0x0d		_	#  CR  '\r' (carriage ret)
0x0e		_	#  SO  (shift out)
0x0f		_	#  SI  (shift in)
0x10		_	#  DLE (data link escape)
0x11		_	#  DC1 (device control 1)
0x12		_	#  DC2 (device control 2)
0x13		_	#  DC3 (device control 3)
0x14		_	#  DC4 (device control 4)
0x15		_	#  NAK (negative ack.)
0x16		_	#  SYN (synchronous idle)
0x17		_	#  ETB (end of trans. blk)
0x18		_	#  CAN (cancel)
0x19		_	#  EM  (end of medium)
0x1a		_	#  SUB (substitute)
0x1b		_	#  ESC (escape)
0x1c		_	#  FS  (file separator)
0x1d		_	#  GS  (group separator)
0x1e		_	#  RS  (record separator)
0x1f		_	#  US  (unit separator)

0x7f		_	#  DEL

#
# Chars to translate to _
#

0x20		_	# space
0x21		_	# !
0x22		_	# ""
0x24		_	# $
0x27		_	# '
0x2a		_	# *
0x2f		_	# /
0x3a		_	# :
0x3b		_	# ;
0x3c		_	# <
0x3e		_	# >
0x3f		_	# ?
0x40		_	# @
0x5c		_	# \
0x60		_	# `
0x7c		_	# |

#
# Chars to translate to -
#

0x28		-	# (
0x29		-	# )
0x5b		-	# [
0x5d		-	# ]
0x7b		-	# {
0x7d		-	# }

#
# Other
#

0x26		_and_	# &

end
".

(** table/unicode.tbl *)
Definition unicode_tbl : str := bs "# This file is part of the Detox package.
#
# Copyright (c) Doug Harple <detox.dharple@gmail.com>
#
# For the full copyright and license information, please view the LICENSE
# file that was distributed with this source code.

#
# Special thanks to:
# - https://www.unicode.org/Public/5.2.0/ucd/UnicodeData.txt
# - https://www.unicode.org/Public/15.1.0/ucd/UnicodeData.txt
# - https://metacpan.org/pod/Text::Unidecode
# - https://github.com/Behat/Transliterator
# - https://www.unicode.org/charts/
#

start

#
# C0 Controls and Basic Latin
#
# The ASCII characters, 0x20-0x7E are here because detox should convert
# multibyte versions of them to single-byte versions.
#
# For instance, the byte sequence 0xC0 0xA0 is really just 0x20 (space).
#
# https://unicode.org/charts/PDF/U0000.pdf
#

0x0001		""_""	# START OF HEADING
0x0002		""_""	# START OF TEXT
0x0003		""_""	# END OF TEXT
0x0004		""_""	# END OF TRANSMISSION
0x0005		""_""	# ENQUIRY
0x0006		""_""	# ACKNOWLEDGE
0x0007		""_""	# BELL
0x0008		""_""	# BACKSPACE
0x0009		""_""	# CHARACTER TABULATION
0x000A		""_""	# LINE FEED (LF)
0x000B		""_""	# LINE TABULATION
0x000C		""_""	# FORM FEED (FF)
0x000D		""_""	# CARRIAGE RETURN (CR)
0x000E		""_""	# SHIFT OUT
0x000F		""_""	# SHIFT IN

0x0010		""_""	# DATA LINK ESCAPE
0x0011		""_""	# DEVICE CONTROL ONE
0x0012		""_""	# DEVICE CONTROL TWO
0x0013		""_""	# DEVICE CONTROL THREE
0x0014		""_""	# DEVICE CONTROL FOUR
0x0015		""_""	# NEGATIVE ACKNOWLEDGE
0x0016		""_""	# SYNCHRONOUS IDLE
0x0017		""_""	# END OF TRANSMISSION BLOCK
0x0018		""_""	# CANCEL
0x0019		""_""	# END OF MEDIUM
0x001A		""_""	# SUBSTITUTE
0x001B		""_""	# ESCAPE
0x001C		""_""	# INFORMATION SEPARATOR FOUR
0x001D		""_""	# INFORMATION SEPARATOR THREE
0x001E		""_""	# INFORMATION SEPARATOR TWO
0x001F		""_""	# INFORMATION SEPARATOR ONE

0x0020		"" ""	# SPACE
0x0021		!	# EXCLAMATION MARK
0x0022		'""'	# QUOTATION MARK
0x0023		#	# NUMBER SIGN
0x0024		$	# DOLLAR SIGN
0x0025		%	# PERCENT SIGN
0x0026		&	# AMPERSAND
0x0027		""'""	# APOSTROPHE
0x0028		(	# LEFT PARENTHESIS
0x0029		)	# RIGHT PARENTHESIS
0x002A		*	# ASTERISK
0x002B		+	# PLUS SIGN
0x002C		,	# COMMA
0x002D		-	# HYPHEN-MINUS
0x002E		.	# FULL STOP
0x002F		/	# SOLIDUS

0x0030		0	# DIGIT ZERO
0x0031		1	# DIGIT ONE
0x0032		2	# DIGIT TWO
0x0033		3	# DIGIT THREE
0x0034		4	# DIGIT FOUR
0x0035		5	# DIGIT FIVE
0x0036		6	# DIGIT SIX
0x0037		7	# DIGIT SEVEN
0x0038		8	# DIGIT EIGHT
0x0039		9	# DIGIT NINE
0x003A		:	# COLON
0x003B		;	# SEMICOLON
0x003C		<	# LESS-THAN SIGN
0x003D		=	# EQUALS SIGN
0x003E		>	# GREATER-THAN SIGN
0x003F		?	# QUESTION MARK

0x0040		@	# COMMERCIAL AT
0x0041		A	# LATIN CAPITAL LETTER A
0x0042		B	# LATIN CAPITAL LETTER B
0x0043		C	# LATIN CAPITAL LETTER C
0x0044		D	# LATIN CAPITAL LETTER D
0x0045		E	# LATIN CAPITAL LETTER E
0x0046		F	# LATIN CAPITAL LETTER F
0x0047		G	# LATIN CAPITAL LETTER G
0x0048		H	# LATIN CAPITAL LETTER H
0x0049		I	# LATIN CAPITAL LETTER I
0x004A		J	# LATIN CAPITAL LETTER J
0x004B		K	# LATIN CAPITAL LETTER K
0x004C		L	# LATIN CAPITAL LETTER L
0x004D		M	# LATIN CAPITAL LETTER M
0x004E		N	# LATIN CAPITAL LETTER N
0x004F		O	# LATIN CAPITAL LETTER O

0x0050		P	# LATIN CAPITAL LETTER P
0x0051		Q	# LATIN CAPITAL LETTER Q
0x0052		R	# LATIN CAPITAL LETTER R
0x0053		S	# LATIN CAPITAL LETTER S
0x0054		T	# LATIN CAPITAL LETTER T
0x0055		U	# LATIN CAPITAL LETTER U
0x0056		V	# LATIN CAPITAL LETTER V
0x0057		W	# LATIN CAPITAL LETTER W
0x0058		X	# LATIN CAPITAL LETTER X
0x0059		Y	# LATIN CAPITAL LETTER Y
0x005A		Z	# LATIN CAPITAL LETTER Z
0x005B		[	# LEFT SQUARE BRACKET
0x005C		\	# REVERSE SOLIDUS
0x005D		]	# RIGHT SQUARE BRACKET
0x005E		^	# CIRCUMFLEX ACCENT
0x005F		_	# LOW LINE

0x0060		`	# GRAVE ACCENT
0x0061		a	# LATIN SMALL LETTER A
0x0062		b	# LATIN SMALL LETTER B
0x0063		c	# LATIN SMALL LETTER C
0x0064		d	# LATIN SMALL LETTER D
0x0065		e	# LATIN SMALL LETTER E
0x0066		f	# LATIN SMALL LETTER F
0x0067		g	# LATIN SMALL LETTER G
0x0068		h	# LATIN SMALL LETTER H
0x0069		i	# LATIN SMALL LETTER I
0x006A		j	# LATIN SMALL LETTER J
0x006B		k	# LATIN SMALL LETTER K
0x006C		l	# LATIN SMALL LETTER L
0x006D		m	# LATIN SMALL LETTER M
0x006E		n	# LATIN SMALL LETTER N
0x006F		o	# LATIN SMALL LETTER O

0x0070		p	# LATIN SMALL LETTER P
0x0071		q	# LATIN SMALL LETTER Q
0x0072		r	# LATIN SMALL LETTER R
0x0073		s	# LATIN SMALL LETTER S
0x0074		t	# LATIN SMALL LETTER T
0x0075		u	# LATIN SMALL LETTER U
0x0076		v	# LATIN SMALL LETTER V
0x0077		w	# LATIN SMALL LETTER W
0x0078		x	# LATIN SMALL LETTER X
0x0079		y	# LATIN SMALL LETTER Y
0x007A		z	# LATIN SMALL LETTER Z
0x007B		{	# LEFT CURLY BRACKET
0x007C		|	# VERTICAL LINE
0x007D		}	# RIGHT CURLY BRACKET
0x007E		~	# TILDE
0x007F		""_""	# DELETE

#
# Latin 1 Supplemental - 0x0080-0x00FF
#
# https://unicode.org/charts/PDF/U0080.pdf
#

0x00A0		"" ""	# NO-BREAK SPACE

0x00AD		-	# SOFT HYPHEN

#
# General Punctuation - 0x2000-0x206F
#
# https://unicode.org/charts/PDF/U2000.pdf
#

0x2000		"" ""	# EN QUAD
0x2001		"" ""	# EM QUAD
0x2002		"" ""	# EN SPACE
0x2003		"" ""	# EM SPACE
0x2004		"" ""	# THREE-PER-EM SPACE
0x2005		"" ""	# FOUR-PER-EM SPACE
0x2006		"" ""	# SIX-PER-EM SPACE
0x2007		"" ""	# FIGURE SPACE
0x2008		"" ""	# PUNCTUATION SPACE
0x2009		"" ""	# THIN SPACE
0x200A		"" ""	# HAIR SPACE
0x200B		""""	# ZERO WIDTH SPACE
0x200C		""""	# ZERO WIDTH NON-JOINER
0x200D		""""	# ZERO NON-JOINER
0x200E		""""	# LEFT-TO-RIGHT MARK
0x200F		""""	# RIGHT-TO-LEFT MARK

0x2010		-	# HYPHEN
0x2011		-	# NON-BREAKING HYPHEN
0x2012		-	# FIGURE DASH
0x2013		-	# EN DASH
0x2014		-	# EM DASH
0x2015		-	# HORIZONTAL BAR
0x2017		_	# DOUBLE LOW LINE

0x2028		"" ""	# LINE SEPARATOR
0x2029		"" ""	# PARAGRAPH SEPARATOR
0x202A		"" ""	# LEFT-TO-RIGHT EMBEDDING
0x202B		"" ""	# RIGHT-TO-LEFT EMBEDDING
0x202C		"" ""	# POP DIRECTIONAL FORMATTING
0x202D		"" ""	# LEFT-TO-RIGHT OVERRIDE
0x202E		"" ""	# RIGHT-TO-LEFT OVERRIDE
0x202F		"" ""	# NARROW NO-BREAK SPACE

0x2044		""_""	# FRACTION SLASH

0x205F		"" ""	# MEDIUM MATHEMATICAL SPACE

0x2060		""""	# WORD JOINER

end
".

(** table/iso8859_1.tbl *)
Definition iso8859_1_tbl : str := bs "# This file is part of the Detox package.
#
# Copyright (c) Doug Harple <detox.dharple@gmail.com>
#
# For the full copyright and license information, please view the LICENSE
# file that was distributed with this source code.

#
# Special thanks to: http://www.bbsinc.com/iso8859.html
#

#
# This file transcodes upper 8-bit characters encoded in ISO-8859-1 into UTF-8.
# It's meant to be used with the iso8859_1 filter, which selects for characters
# between 0x80 and 0xFF.
#

default		_

start

#
# Latin 1 Supplemental - 0x0080-0x00FF
#
# https://unicode.org/charts/PDF/U0080.pdf
#

0x00A0		"" ""		# NO-BREAK SPACE
0x00A1		""\u00A1""	# INVERTED EXCLAMATION MARK
0x00A2		""\u00A2""	# CENT SIGN
0x00A3		""\u00A3""	# POUND SIGN
0x00A4		""\u00A4""	# CURRENCY SIGN
0x00A5		""\u00A5""	# YEN SIGN
0x00A6		""\u00A6""	# BROKEN BAR
0x00A7		""\u00A7""	# SECTION SIGN
0x00A8		""\u00A8""	# DIAERESIS
0x00A9		""\u00A9""	# COPYRIGHT SIGN
0x00AA		""\u00AA""	# FEMININE ORDINAL INDICATOR
0x00AB		""\u00AB""	# LEFT-POINTING DOUBLE ANGLE QUOTATION MARK
0x00AC		""\u00AC""	# NOT SIGN
0x00AD		""-""		# SOFT HYPHEN
0x00AE		""\u00AE""	# REGISTERED SIGN
0x00AF		""\u00AF""	# MACRON

0x00B0		""\u00B0""	# DEGREE SIGN
0x00B1		""\u00B1""	# PLUS-MINUS SIGN
0x00B2		""\u00B2""	# SUPERSCRIPT TWO
0x00B3		""\u00B3""	# SUPERSCRIPT THREE
0x00B4		""\u00B4""	# ACUTE ACCENT
0x00B5		""\u00B5""	# MICRO SIGN
0x00B6		""\u00B6""	# PILCROW SIGN
0x00B7		""\u00B7""	# MIDDLE DOT
0x00B8		""\u00B8""	# CEDILLA
0x00B9		""\u00B9""	# SUPERSCRIPT ONE
0x00BA		""\u00BA""	# MASCULINE ORDINAL INDICATOR
0x00BB		""\u00BB""	# RIGHT-POINTING DOUBLE ANGLE QUOTATION MARK
0x00BC		""\u00BC""	# VULGAR FRACTION ONE QUARTER
0x00BD		""\u00BD""	# VULGAR FRACTION ONE HALF
0x00BE		""\u00BE""	# VULGAR FRACTION THREE QUARTERS
0x00BF		""\u00BF""	# INVERTED QUESTION MARK

0x00C0		""\u00C0""	# LATIN CAPITAL LETTER A WITH GRAVE
0x00C1		""\u00C1""	# LATIN CAPITAL LETTER A WITH ACUTE
0x00C2		""\u00C2""	# LATIN CAPITAL LETTER A WITH CIRCUMFLEX
0x00C3		""\u00C3""	# LATIN CAPITAL LETTER A WITH TILDE
0x00C4		""\u00C4""	# LATIN CAPITAL LETTER A WITH DIAERESIS
0x00C5		""\u00C5""	# LATIN CAPITAL LETTER A WITH RING ABOVE
0x00C6		""\u00C6""	# LATIN CAPITAL LETTER AE
0x00C7		""\u00C7""	# LATIN CAPITAL LETTER C WITH CEDILLA
0x00C8		""\u00C8""	# LATIN CAPITAL LETTER E WITH GRAVE
0x00C9		""\u00C9""	# LATIN CAPITAL LETTER E WITH ACUTE
0x00CA		""\u00CA""	# LATIN CAPITAL LETTER E WITH CIRCUMFLEX
0x00CB		""\u00CB""	# LATIN CAPITAL LETTER E WITH DIAERESIS
0x00CC		""\u00CC""	# LATIN CAPITAL LETTER I WITH GRAVE
0x00CD		""\u00CD""	# LATIN CAPITAL LETTER I WITH ACUTE
0x00CE		""\u00CE""	# LATIN CAPITAL LETTER I WITH CIRCUMFLEX
0x00CF		""\u00CF""	# LATIN CAPITAL LETTER I WITH DIAERESIS

0x00D0		""\u00D0""	# LATIN CAPITAL LETTER ETH (Icelandic)
0x00D1		""\u00D1""	# LATIN CAPITAL LETTER N WITH TILDE
0x00D2		""\u00D2""	# LATIN CAPITAL LETTER O WITH GRAVE
0x00D3		""\u00D3""	# LATIN CAPITAL LETTER O WITH ACUTE
0x00D4		""\u00D4""	# LATIN CAPITAL LETTER O WITH CIRCUMFLEX
0x00D5		""\u00D5""	# LATIN CAPITAL LETTER O WITH TILDE
0x00D6		""\u00D6""	# LATIN CAPITAL LETTER O WITH DIAERESIS
0x00D7		""\u00D7""	# MULTIPLICATION SIGN
0x00D8		""\u00D8""	# LATIN CAPITAL LETTER O WITH STROKE
0x00D9		""\u00D9""	# LATIN CAPITAL LETTER U WITH GRAVE
0x00DA		""\u00DA""	# LATIN CAPITAL LETTER U WITH ACUTE
0x00DB		""\u00DB""	# LATIN CAPITAL LETTER U WITH CIRCUMFLEX
0x00DC		""\u00DC""	# LATIN CAPITAL LETTER U WITH DIAERESIS
0x00DD		""\u00DD""	# LATIN CAPITAL LETTER Y WITH ACUTE
0x00DE		""\u00DE""	# LATIN CAPITAL LETTER THORN (Icelandic)
0x00DF		""\u00DF""	# LATIN SMALL LETTER SHARP S (German)

0x00E0		""\u00E0""	# LATIN SMALL LETTER A WITH GRAVE
0x00E1		""\u00E1""	# LATIN SMALL LETTER A WITH ACUTE
0x00E2		""\u00E2""	# LATIN SMALL LETTER A WITH CIRCUMFLEX
0x00E3		""\u00E3""	# LATIN SMALL LETTER A WITH TILDE
0x00E4		""\u00E4""	# LATIN SMALL LETTER A WITH DIAERESIS
0x00E5		""\u00E5""	# LATIN SMALL LETTER A WITH RING ABOVE
0x00E6		""\u00E6""	# LATIN SMALL LETTER AE
0x00E7		""\u00E7""	# LATIN SMALL LETTER C WITH CEDILLA
0x00E8		""\u00E8""	# LATIN SMALL LETTER E WITH GRAVE
0x00E9		""\u00E9""	# LATIN SMALL LETTER E WITH ACUTE
0x00EA		""\u00EA""	# LATIN SMALL LETTER E WITH CIRCUMFLEX
0x00EB		""\u00EB""	# LATIN SMALL LETTER E WITH DIAERESIS
0x00EC		""\u00EC""	# LATIN SMALL LETTER I WITH GRAVE
0x00ED		""\u00ED""	# LATIN SMALL LETTER I WITH ACUTE
0x00EE		""\u00EE""	# LATIN SMALL LETTER I WITH CIRCUMFLEX
0x00EF		""\u00EF""	# LATIN SMALL LETTER I WITH DIAERESIS

0x00F0		""\u00F0""	# LATIN SMALL LETTER ETH (Icelandic)
0x00F1		""\u00F1""	# LATIN SMALL LETTER N WITH TILDE
0x00F2		""\u00F2""	# LATIN SMALL LETTER O WITH GRAVE
0x00F3		""\u00F3""	# LATIN SMALL LETTER O WITH ACUTE
0x00F4		""\u00F4""	# LATIN SMALL LETTER O WITH CIRCUMFLEX
0x00F5		""\u00F5""	# LATIN SMALL LETTER O WITH TILDE
0x00F6		""\u00F6""	# LATIN SMALL LETTER O WITH DIAERESIS
0x00F7		""\u00F7""	# DIVISION SIGN
0x00F8		""\u00F8""	# LATIN SMALL LETTER O WITH STROKE
0x00F9		""\u00F9""	# LATIN SMALL LETTER U WITH GRAVE
0x00FA		""\u00FA""	# LATIN SMALL LETTER U WITH ACUTE
0x00FB		""\u00FB""	# LATIN SMALL LETTER U WITH CIRCUMFLEX
0x00FC		""\u00FC""	# LATIN SMALL LETTER U WITH DIAERESIS
0x00FD		""\u00FD""	# LATIN SMALL LETTER Y WITH ACUTE
0x00FE		""\u00FE""	# LATIN SMALL LETTER THORN (Icelandic)
0x00FF		""\u00FF""	# LATIN SMALL LETTER Y WITH DIAERESIS

end
".

(** table/cp1252.tbl *)
Definition cp1252_tbl : str := bs "# This file is part of the Detox package.
#
# Copyright (c) Doug Harple <detox.dharple@gmail.com>
#
# For the full copyright and license information, please view the LICENSE
# file that was distributed with this source code.

#
# This table contains some rules for transliterating Window CP-1252 characters
# into ASCII.
#
# Thanks to:
# - https://en.wikipedia.org/wiki/Windows-1252
#

#
# ""default"" is commented out because this is not intended to be run in
# isolation.  It should be a prefilter in front of the ISO 8859-1 filter, or,
# in very rare cases, the UTF-8 one.
#

# default

start

#
# CP-1252 Translation - 0x0080-0x009F
#

0x0080		""\u20AC""	# EURO SIGN
0x0081		""-""		# undefined, or control character
0x0082		""\u201A""	# SINGLE LOW-9 QUOTATION MARK
0x0083		""\u0192""	# LATIN SMALL LETTER F WITH HOOK
0x0084		""\u201E""	# DOUBLE LOW-9 QUOTATION MARK
0x0085		""\u2026""	# HORIZONTAL ELLIPSIS
0x0086		""\u2020""	# DAGGER
0x0087		""\u2021""	# DOUBLE DAGGER
0x0088		""\u02C6""	# MODIFIER LETTER CIRCUMFLEX ACCENT
0x0089		""\u2030""	# PER MILLE SIGN
0x008A		""\u0160""	# LATIN CAPITAL LETTER S WITH CARON
0x008B		""\u2039""	# SINGLE LEFT-POINTING ANGLE QUOTATION MARK
0x008C		""\u0152""	# LATIN CAPITAL LIGATURE OE
0x008D		""-""		# undefined, or control character
0x008E		""\u017D""	# LATIN CAPITAL LETTER Z WITH CARON
0x008F		""-""		# undefined, or control character

0x0090		""-""		# undefined, or control character
0x0091		""\u2018""	# LEFT SINGLE QUOTATION MARK
0x0092		""\u2019""	# RIGHT SINGLE QUOTATION MARK
0x0093		""\u201C""	# LEFT DOUBLE QUOTATION MARK
0x0094		""\u201D""	# RIGHT DOUBLE QUOTATION MARK
0x0095		""\u2022""	# BULLET
0x0096		""\u2013""	# EN DASH
0x0097		""\u2014""	# EM DASH
0x0098		""\u02DC""	# SMALL TILDE
0x0099		""\u2122""	# TRADE MARK SIGN
0x009A		""\u0161""	# LATIN SMALL LETTER S WITH CARON
0x009B		""\u203A""	# SINGLE RIGHT-POINTING ANGLE QUOTATION MARK
0x009C		""\u0153""	# LATIN SMALL LIGATURE OE
0x009D		""-""		# undefined, or control character
0x009E		""\u017E""	# LATIN SMALL LETTER Z WITH CARON
0x009F		""\u0178""	# LATIN CAPITAL LETTER Y WITH DIAERESIS

end
".

(** table/c_escape.tbl *)
Definition c_escape_tbl : str := bs "# This file is part of the Detox package.
#
# Copyright (c) Doug Harple <detox.dharple@gmail.com>
#
# For the full copyright and license information, please view the LICENSE
# file that was distributed with this source code.

#
# This file holds the escape sequences needed to escape all characters between
# 0x01 and 0x7F.
#

start

0x01		\x01	#  SOH (start of heading)
0x02		\x02	#  STX (start of text)
0x03		\x03	#  ETX (end of text)
0x04		\x04	#  EOT (end of transmission)
0x05		\x05	#  ENQ (enquiry)
0x06		\x06	#  ACK (acknowledge)
0x07		\a	#  BEL '\a' (bell)
0x08		\b	#  BS  '\b' (backspace)
0x09		\t	#  HT  '\t' (horizontal tab)
0x0a		\n	#  LF  '\n' (new line)
0x0b		\v	#  VT  '\v' (vertical tab)
0x0c		\f	#  FF  '\f' (form feed)
0x0d		\r	#  CR  '\r' (carriage ret)
0x0e		\x0e	#  SO  (shift out)
0x0f		\x0f	#  SI  (shift in)
0x10		\x10	#  DLE (data link escape)
0x11		\x11	#  DC1 (device control 1)
0x12		\x12	#  DC2 (device control 2)
0x13		\x13	#  DC3 (device control 3)
0x14		\x14	#  DC4 (device control 4)
0x15		\x15	#  NAK (negative ack.)
0x16		\x16	#  SYN (synchronous idle)
0x17		\x17	#  ETB (end of trans. blk)
0x18		\x18	#  CAN (cancel)
0x19		\x19	#  EM  (end of medium)
0x1a		\x1a	#  SUB (substitute)
0x1b		\x1b	#  ESC (escape)
0x1c		\x1c	#  FS  (file separator)
0x1d		\x1d	#  GS  (group separator)
0x1e		\x1e	#  RS  (record separator)
0x1f		\x1f	#  US  (unit separator)

0x22		'\""'	# ""

0x27		""\'""	# '

0x3F		\?	# ?

0x5c		\\	# \

0x7f		\x7f	#  DEL

end
".

